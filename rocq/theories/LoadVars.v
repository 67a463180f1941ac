(** Proofs about the joints and the joint variables of a loaded robot. *)
From Coq Require Import Permutation Lia.
From Verif Require Import SMapProofs TransSpec TransProofs TransHandle LoadModel LoadSpec ParseProofs LoadProofs LoadMain LoadSep.
Local Open Scope string_scope.
Local Open Scope list_scope.
Local Open Scope nat_scope.

Section Vars.
Context (A : larith).
Notation loader := (loader A).

(** ** Which joints there are *)

Definition has_state (l : loader) (n : string) : Prop := exists r, sfind n (l_raw A l) = Some r.
Definition has_command (k : command) (l : loader) (n : string) : Prop := exists x, sfind n (s_mine (tget k (l_jnt_cmd A l))) = Some x.

(** The transmission interfaces are not concerned. *)
Definition same_joints (l l' : loader) : Prop :=
  l_raw A l' = l_raw A l /\ l_jnt_cmd A l' = l_jnt_cmd A l /\ l_jnt_state A l' = l_jnt_state A l.
Lemma same_joints_refl l : same_joints l l.
Proof. repeat split. Qed.
Lemma same_joints_trans l l' l'' : same_joints l l' -> same_joints l' l'' -> same_joints l l''.
Proof. intros (H1 & H2 & H3) (K1 & K2 & K3). repeat split; congruence. Qed.

Lemma register_state_joints d l : same_joints l (fst (register_state A d l)).
Proof. unfold register_state. destruct (make_handle _ _ _ _ _); repeat split. Qed.
Lemma register_command_joints k d l : same_joints l (fst (register_command A k d l)).
Proof.
  unfold register_command. pose proof (register_state_joints d l) as H.
  destruct (has_resource _ _); [|destruct (register_state A d l) as [l1 ok]; cbn in H];
    [|destruct ok; [|exact H]]; destruct (make_handle _ _ _ _ _); cbn; try (repeat split; apply H); repeat split.
Qed.
Lemma register_both_joints k d l : same_joints l (fst (register_both A k d l)).
Proof.
  unfold register_both. pose proof (register_command_joints k d l) as H. destruct (register_command A k d l) as [l1 ok]; cbn in H.
  destruct ok; [|exact H]. cbn [negb].
  destruct (has_resource _ _).
  - destruct (make_handle _ _ _ _ _); cbn; repeat split; apply H.
  - destruct (make_handle A _ _ (hd_act_state A d) _); [|repeat split; apply H]. cbn [negb].
    destruct (make_handle A _ _ (hd_act_cmd A d) _); repeat split; apply H.
Qed.

Lemma update_states_joints joints : forall l n, has_state (update_states A joints l) n -> has_state l n \/ In n (map ji_name joints).
Proof.
  induction joints as [|j joints IH]; intros l n H; cbn [update_states] in H; [auto|].
  destruct (s_has _ _) in H; [destruct (IH l n H); cbn; auto|].
  unfold raw_at in H. destruct (sfind (ji_name j) (l_raw A l)) as [r|] eqn:E.
  - destruct (IH _ n H) as [(r' & H')|H']; [left; exists r'; exact H' | cbn; auto].
  - destruct (IH _ n H) as [(r' & H')|H']; [|cbn; auto]. cbn in H'. rewrite sfind_sset in H'.
    destruct (String.eqb_spec n (ji_name j)) as [->|]; [right; now left | left; eexists; exact H'].
Qed.
Lemma update_commands_joints k joints : forall l k' n, has_command k' (fst (update_commands A k joints l)) n ->
  has_command k' l n \/ (k' = k /\ In n (map ji_name joints)).
Proof.
  induction joints as [|j joints IH]; intros l k' n H; cbn [update_commands] in H; [auto|].
  destruct (s_has _ _) in H; [destruct (IH l k' n H) as [|(-> & ?)]; cbn; auto|].
  assert (SC : l_jnt_cmd A (snd (raw_at A (ji_name j) l)) = l_jnt_cmd A l) by (unfold raw_at; destruct (sfind _ _); reflexivity).
  destruct (raw_at A (ji_name j) l) as [r l1]. cbn in SC.
  destruct (sfind (ji_name j) (s_mine (l_jnt_state A l1))) as [js|].
  - destruct (IH _ k' n H) as [(x & H')|(-> & H')]; [|cbn; auto]. cbn in H'. rewrite SC in H'.
    destruct (command_dec k' k) as [->|NE].
    + rewrite tget_same in H'. unfold s_put in H'. destruct (s_theirs _); cbn in H'; [left; eexists; exact H'|].
      rewrite sfind_sset in H'. destruct (String.eqb_spec n (ji_name j)) as [->|]; [right; split; [reflexivity|now left] | left; eexists; exact H'].
    + rewrite tget_other in H' by exact NE. left. eexists; exact H'.
  - destruct H as (x & H). cbn in H. rewrite SC in H. left. eexists; exact H.
Qed.
(** Registering the joints' commands does not add names to the raw data. *)
Lemma ensure_mine {H} (s : slot H) : s_mine (s_ensure s) = s_mine s.
Proof. unfold s_ensure. destruct (s_get s); reflexivity. Qed.

Lemma load_maps_joints p i t l l' : inv A l -> load_transmission A i = Got t -> load_maps A p i t l = (l', Returned true) ->
  (forall n, has_state l' n <-> has_state l n \/ In n (map ji_name (ti_joints i))) /\
  (forall k n, has_command k l' n <-> has_command k l n \/ (commanded p = Some k /\ In n (map ji_name (ti_joints i)))).
Proof.
  intros I HT E. unfold load_maps in E.
  destruct (actuator_state_data A i l) as [act|]; [|discriminate].
  destruct (commanded p) as [k|] eqn:EP.
  - destruct (actuator_command_data A k i l) as [cmd|]; [|discriminate].
    destruct (update_joint_commands_spec A k i l I) as (l1 & EU & I1 & X1 & R1 & OS & O & P1 & P2). rewrite EU in E. cbn [negb] in E.
    destruct (joint_state_data A i l1) as [js|]; [|discriminate].
    destruct (joint_command_data A k i l1) as [jc|]; [|discriminate].
    set (l2 := add_transmission A t l1) in *. set (d := mkHData A (ti_name i) t act cmd js jc) in *.
    assert (SJ : same_joints l2 l').
    { destruct p as [|k'|k']; cbn in EP; try discriminate EP; injection EP as ->.
      - pose proof (register_command_joints k d l2) as S. destruct (register_command A k d l2). injection E as <- _. exact S.
      - pose proof (register_both_joints k d l2) as S. destruct (register_both A k d l2). injection E as <- _. exact S. }
    destruct SJ as (S1 & S2 & _). unfold has_state, has_command. rewrite S1, S2. cbn.
    destruct (update_joint_states_spec A i l I) as (IJ & XJ & _ & OJ & CJ & PJ). set (lj := update_joint_states A i l) in *.
    unfold update_joint_commands in EU. fold lj in EU. set (le := set_jnt_cmd A k _ lj) in *.
    assert (RW : forall n, has_state l1 n <-> has_state lj n).
    { assert (Ie : inv A le).
      { pose proof (bare_ensure _ (inv_jc _ _ IJ k)) as EE.
        constructor; try exact (inv_js _ _ IJ); try exact (inv_state _ _ IJ); try exact (inv_raw _ _ IJ); try exact (inv_apart _ _ IJ).
        - intros k'. unfold le; cbn. rewrite EE. destruct (command_dec k' k) as [->|NE]; [rewrite tget_same; apply bare_on | rewrite tget_other by exact NE; apply IJ].
        - intros K. pose proof (inv_if _ _ IJ K) as Z. destruct K; exact Z.
        - intros k' n x. unfold le; cbn. rewrite EE. destruct (command_dec k' k) as [->|NE]; [rewrite tget_same | rewrite tget_other by exact NE]; cbn; apply IJ. }
      destruct (update_commands_spec A k (ti_joints i) le Ie) as (l1' & E1 & _ & _ & _ & _ & _ & W & _); auto.
      { unfold le; cbn. rewrite tget_same, bare_ensure by apply IJ. reflexivity. }
      rewrite EU in E1. injection E1 as <-. unfold has_state. rewrite W. reflexivity. }
    split.
    + intros n. fold (has_state l1 n) (has_state l n). rewrite RW. split.
      * intros H. destruct (update_states_joints _ _ _ H) as [(r & H')|H']; [left; exists r; exact H' | auto].
      * intros [(r & H)|H]; [exists r; now apply XJ|]. apply in_names in H. destruct H as (j & -> & Hj). exact (PJ j Hj).
    + intros k' n. fold (has_command k' l1 n) (has_command k' l n). split.
      * intros H. assert (H' : has_command k' (fst (update_commands A k (ti_joints i) le)) n) by (rewrite EU; exact H).
        destruct (update_commands_joints _ _ _ _ _ H') as [(x & H1)|(-> & H1)]; [|auto].
        left. exists x. unfold le in H1. cbn in H1. rewrite CJ in H1.
        destruct (command_dec k' k) as [->|NE]; [rewrite tget_same, ensure_mine in H1 | rewrite tget_other in H1 by exact NE]; exact H1.
      * intros [(x & H)|(H & H1)].
        -- pose proof (bare_find _ _ _ (inv_jc _ _ I k') H) as G. destruct (ext_jc _ _ _ X1 k' _ G) as (m' & G' & KK). apply KK in H.
           exists x. rewrite bare_get in G' by apply I1. destruct (s_on (tget k' (l_jnt_cmd A l1))); [injection G' as <-; exact H | discriminate].
        -- injection H as <-. apply in_names in H1. destruct H1 as (j & -> & Hj). exact (P2 j Hj).
  - destruct p; cbn in EP; try discriminate EP.
    destruct (update_joint_states_spec A i l I) as (IJ & XJ & _ & OJ & CJ & PJ). cbn -[register_state update_joint_states joint_state_data add_transmission] in E. set (lj := update_joint_states A i l) in *.
    destruct (joint_state_data A i lj) as [js|]; [|discriminate].
    set (l2 := add_transmission A t lj) in *. set (d := mkHData A (ti_name i) t act no_data js no_data) in *.
    assert (SJ : same_joints l2 l').
    { pose proof (register_state_joints d l2) as S. destruct (register_state A d l2). injection E as <- _. exact S. }
    destruct SJ as (S1 & S2 & _). unfold has_state, has_command. rewrite S1, S2. cbn. rewrite CJ. split.
    + intros n. fold (has_state lj n) (has_state l n). split.
      * intros H. destruct (update_states_joints _ _ _ H) as [(r & H')|H']; [left; exists r; exact H' | auto].
      * intros [(r & H)|H]; [exists r; now apply XJ|]. apply in_names in H. destruct H as (j & -> & Hj). exact (PJ j Hj).
    + intros k n. split; [auto|]. intros [H|(H & _)]; [exact H | discriminate].
Qed.

Lemma asks_commands hw k : (exists p, provider_of hw = Some p /\ commanded p = Some k) <-> exists K, In K (asks hw) /\ commands K = Some k.
Proof.
  rewrite provider_asks. destruct (provider_of hw) as [p|]; split.
  - intros (p' & [= <-] & E). exact (commanded_kinds p k E).
  - intros (K & H & E). exists p. split; [reflexivity|]. destruct (commands_kinds p K H) as [N|N]; congruence.
  - intros (p & E & _). discriminate.
  - intros (K & [] & _).
Qed.

Lemma load_ifaces_joints hws : forall i t b l l' o, inv A l -> load_transmission A i = Got t -> load_ifaces A hws i t b l = (l', o) ->
  (forall n, has_state l' n <-> has_state l n \/ ((exists hw, In hw hws /\ served A i l hw) /\ In n (map ji_name (ti_joints i)))) /\
  (forall k n, has_command k l' n <-> has_command k l n \/
     ((exists hw K, In hw hws /\ served A i l hw /\ In K (asks hw) /\ commands K = Some k) /\ In n (map ji_name (ti_joints i)))).
Proof.
  induction hws as [|hw hws IH]; intros i t b l l' o I HT E; cbn [load_ifaces] in E.
  - injection E as <- _. split; intros; (split; [auto|]).
    + intros [H|((hw & [] & _) & _)]; exact H.
    + intros [H|((hw & K & [] & _) & _)]; exact H.
  - pose proof (provider_asks hw) as PA. pose proof (fun k => asks_commands hw k) as AC. destruct (provider_of hw) as [p|].
    + destruct (load_maps_spec A p i t l I HT) as (l1 & o1 & E1 & [(-> & -> & N)|(-> & ON & EN)]); rewrite E1 in E.
      * destruct (IH i t _ l l' o I HT E) as (H1 & H2).
        assert (NS : ~ served A i l hw) by (intros (_ & H); rewrite PA in H; auto).
        split; intros; rewrite ?H1, ?H2; (split; (intros [H|(H & HN)]; [auto|right; split; [|exact HN]])).
        -- destruct H as (w & Hw & S). exists w. cbn. auto.
        -- destruct H as (w & [->|Hw] & S); [contradiction | eauto].
        -- destruct H as (w & K & Hw & S). exists w, K. cbn. tauto.
        -- destruct H as (w & K & [->|Hw] & S & R); [contradiction | exists w, K; auto].
      * destruct (load_maps_joints p i t l l1 I HT E1) as (M1 & M2).
        destruct (IH i t _ l1 l' o (ent_inv _ _ _ _ _ EN) HT E) as (H1 & H2).
        assert (SV : served A i l hw) by (split; rewrite PA; [apply kinds_nonempty | exact ON]).
        assert (SX : forall w, served A i l1 w <-> served A i l w).
        { intros w. unfold served. split; intros (Z1 & Z2); (split; [exact Z1|]); intros K HK; apply (on_robot_ext A K i l l1 (ent_ext _ _ _ _ _ EN)); auto. }
        split.
        -- intros n. rewrite H1, M1. split.
           ++ intros [[H|H]|(_ & H)]; [auto | right; split; [exists hw; cbn; auto | exact H] | right; split; [exists hw; cbn; auto | exact H]].
           ++ intros [H|(_ & H)]; auto.
        -- intros k n. rewrite H2, M2. specialize (AC k). split.
           ++ intros [[H|(H & HN)]|((w & K & Hw & S & HK & EK) & HN)]; [auto| |].
              ** right. split; [|exact HN]. destruct (proj1 AC (ex_intro _ p (conj eq_refl H))) as (K & HK & EK). exists hw, K. cbn. auto.
              ** right. split; [|exact HN]. exists w, K. rewrite <- SX. cbn. auto.
           ++ intros [H|((w & K & [<-|Hw] & S & HK & EK) & HN)]; [auto| |].
              ** left; right. split; [|exact HN]. destruct (proj2 AC (ex_intro _ K (conj HK EK))) as (p' & [= <-] & Z). exact Z.
              ** right. split; [|exact HN]. exists w, K. rewrite SX. auto.
    + destruct (IH i t b l l' o I HT E) as (H1 & H2).
      assert (NS : ~ served A i l hw) by (intros (H & _); contradiction).
      split; intros; rewrite ?H1, ?H2; (split; (intros [H|(H & HN)]; [auto|right; split; [|exact HN]])).
      * destruct H as (w & Hw & S). exists w. cbn. auto.
      * destruct H as (w & [->|Hw] & S); [contradiction | eauto].
      * destruct H as (w & K & Hw & S). exists w, K. cbn. tauto.
      * destruct H as (w & K & [->|Hw] & S & R); [contradiction | exists w, K; auto].
Qed.

(** ** When a description is loaded *)

Lemma loadable_complete i l : loadable A i l -> complete i.
Proof.
  intros (_ & P & hw & H & _). unfold interfaces in *. destruct (ti_joints i) as [|j js] eqn:E; [easy|].
  split; [rewrite E; discriminate|]. intros j' Hj Z. rewrite E in Hj. specialize (P j' Hj). rewrite Z in P. apply Permutation_sym, Permutation_nil in P. rewrite P in H. easy.
Qed.
Lemma load_info_loadable i l : inv A l -> snd (load_info A i l) = Returned true <-> loadable A i l.
Proof.
  intros I.
  assert (G : complete i -> snd (load_info A i l) = Returned true <-> loadable A i l).
  { intros C. rewrite (load_info_iff A i l I C). unfold loadable. split; intros ((t & H) & R); (split; [exists t; now apply described_iff | exact R]). }
  split; [|intros H; apply G; [exact (loadable_complete i l H) | exact H]].
  intros H. apply G; [|exact H]. unfold load_info in H.
  destruct (load_transmission A i); try discriminate H. destruct (ti_joints i) as [|j js] eqn:EJ; [discriminate|].
  destruct (ji_ifaces j) as [|w ws] eqn:EI; [discriminate|].
  destruct (same_interfaces (w :: ws) (j :: js)) eqn:ES; [|discriminate].
  split; [rewrite EJ; discriminate|]. intros j' Hj Z. rewrite EJ in Hj.
  pose proof (proj1 (same_interfaces_spec _ _) ES j' Hj) as P. rewrite Z in P. apply Permutation_sym, Permutation_nil in P. discriminate.
Qed.
Lemma loadable_ext i l l' : ext A l l' -> loadable A i l' <-> loadable A i l.
Proof.
  intros X. unfold loadable, served. split; intros (H1 & H2 & hw & H3 & H4 & H5); (split; [exact H1|]; split; [exact H2|]; exists hw; split; [exact H3|]; split; [exact H4|]);
    intros K HK; apply (on_robot_ext A K i l l' X); auto.
Qed.
Lemma served_ext i l l' hw : ext A l l' -> served A i l' hw <-> served A i l hw.
Proof. intros X. unfold served. split; intros (H4 & H5); (split; [exact H4|]); intros K HK; apply (on_robot_ext A K i l l' X); auto. Qed.

Lemma load_info_joints i l : inv A l ->
  (forall n, has_state (fst (load_info A i l)) n <-> has_state l n \/ (loadable A i l /\ In n (map ji_name (ti_joints i)))) /\
  (forall k n, has_command k (fst (load_info A i l)) n <-> has_command k l n \/
     ((loadable A i l /\ exists hw K, In hw (interfaces i) /\ served A i l hw /\ In K (asks hw) /\ commands K = Some k) /\ In n (map ji_name (ti_joints i)))).
Proof.
  intros I. pose proof (load_info_loadable i l I) as L.
  destruct (load_info_spec A i l I) as (l' & o & ks & E & EN & _ & U & _). rewrite E in *. cbn [fst snd] in *.
  assert (D : o = Returned true \/ o <> Returned true) by (destruct o as [[|]| | |]; auto; right; discriminate).
  destruct D as [->|N].
  - assert (LD : loadable A i l) by now apply L.
    unfold load_info in E. destruct (load_transmission A i) as [t| |] eqn:HT; try discriminate E.
    unfold interfaces. destruct (ti_joints i) as [|j js] eqn:EJ; [discriminate|].
    destruct (ji_ifaces j) as [|w ws] eqn:EI; [discriminate|].
    destruct (same_interfaces (w :: ws) (j :: js)); [|discriminate].
    destruct (load_ifaces_joints (w :: ws) i t false l l' _ I HT E) as (H1 & H2). rewrite EJ in H1, H2. split.
    + intros n. rewrite H1. pose proof LD as (_ & _ & hw & Hw & S). unfold interfaces in Hw. rewrite EJ, EI in Hw.
      split; (intros [H|(_ & H)]; [now left|]; right; (split; [|exact H])); [exact LD | eauto].
    + intros k n. rewrite H2. split; (intros [H|(H & HN)]; [auto|right; split; [|exact HN]]); [split; [exact LD|exact H] | apply H].
  - destruct (U N) as (-> & _). assert (NL : ~ loadable A i l) by (intros H; apply N; now apply L).
    split; intros; (split; [auto|]); intros [H|H]; tauto.
Qed.

Lemma after_joints infos : forall l, inv A l ->
  (forall n, has_state (after A infos l) n <-> has_state l n \/ exists i, In i infos /\ loadable A i l /\ In n (map ji_name (ti_joints i))) /\
  (forall k n, has_command k (after A infos l) n <-> has_command k l n \/
     exists i hw K, In i infos /\ loadable A i l /\ In n (map ji_name (ti_joints i)) /\
       In hw (interfaces i) /\ served A i l hw /\ In K (asks hw) /\ commands K = Some k).
Proof.
  induction infos as [|i infos IH]; intros l I; cbn [after fold_left].
  - split; intros; (split; [auto|]).
    + intros [H|(i & [] & _)]; exact H.
    + intros [H|(i & hw & K & [] & _)]; exact H.
  - destruct (load_info_inv A i l I) as (I1 & X1). destruct (load_info_joints i l I) as (S1 & C1).
    destruct (IH _ I1) as (S2 & C2). fold (after A infos (fst (load_info A i l))). split.
    + intros n. rewrite S2, S1. split.
      * intros [[H|(L & H)]|(i' & Hi & L & H)]; [auto | right; exists i; cbn; auto | right; exists i'; rewrite <- (loadable_ext i' _ _ X1); cbn; auto].
      * intros [H|(i' & [<-|Hi] & L & H)]; [auto | auto | right; exists i'; rewrite (loadable_ext i' _ _ X1); auto].
    + intros k n. rewrite C2, C1. split.
      * intros [[H|((L & hw & K & H1 & H2 & H3 & H4) & H)]|(i' & hw & K & Hi & L & H & H1 & H2 & H3 & H4)]; [auto| |].
        -- right. exists i, hw, K. cbn. tauto.
        -- right. exists i', hw, K. rewrite <- (loadable_ext i' _ _ X1), <- (served_ext i' _ _ hw X1). cbn. tauto.
      * intros [H|(i' & hw & K & [<-|Hi] & L & H & H1 & H2 & H3 & H4)]; [auto| |].
        -- left; right. split; [|exact H]. split; [exact L|]. exists hw, K. auto.
        -- right. exists i', hw, K. rewrite (loadable_ext i' _ _ X1), (served_ext i' _ _ hw X1). tauto.
Qed.

Lemma state_shown l n : inv A l -> (exists m x, s_get (l_jnt_state A l) = Some m /\ sfind n m = Some x) <-> has_state l n.
Proof.
  intros I. split.
  - intros (m & x & G & F). destruct (joint_state A l n m x I G F) as (r & R & _). now exists r.
  - intros (r & R). assert (F : sfind n (s_mine (l_jnt_state A l)) = Some (state_handle r)) by (rewrite (inv_state _ _ I), R; reflexivity).
    do 2 eexists. split; [exact (bare_find _ _ _ (inv_js _ _ I) F) | exact F].
Qed.
Lemma command_shown k l n : inv A l -> (exists m x, s_get (tget k (l_jnt_cmd A l)) = Some m /\ sfind n m = Some x) <-> has_command k l n.
Proof.
  intros I. split.
  - intros (m & x & G & F). rewrite bare_get in G by apply I. destruct (s_on _); [|discriminate]. injection G as <-. now exists x.
  - intros (x & F). do 2 eexists. split; [exact (bare_find _ _ _ (inv_jc _ _ I k) F) | exact F].
Qed.

(** ** Variables *)

Definition offset (p : purpose) : nat :=
  match p with
  | StateOf Position => 0 | StateOf Velocity => 1 | StateOf Effort => 2 | StateOf AbsolutePosition => 6 | StateOf TorqueSensor => 7
  | CommandOf Pos => 3 | CommandOf Vel => 4 | CommandOf Eff => 5
  end.
Lemma shows_at l n p a : inv A l -> shows A l n p a -> exists r, sfind n (l_raw A l) = Some r /\ a = rj_base r + offset p.
Proof.
  intros I. destruct p as [q|k]; cbn [shows].
  - intros (m & x & G & F & E). destruct (joint_state A l n m x I G F) as (r & R & ->). exists r. split; [exact R|].
    destruct q; cbn in *; try (injection E as <-); try subst a; lia.
  - intros (m & x & G & F & E). destruct (joint_cmd A l k n m x I G F) as (r & R & E'). exists r. split; [exact R|].
    destruct k; cbn in *; lia.
Qed.
Lemma offset_inj p p' : offset p = offset p' -> p = p'.
Proof. destruct p as [[]|[]], p' as [[]|[]]; cbn; congruence. Qed.
Lemma offset_bound p : offset p < 8.
Proof. destruct p as [[]|[]]; cbn; lia. Qed.

Lemma shows_inj l n p a n' p' a' : inv A l -> shows A l n p a -> shows A l n' p' a' -> (a = a' <-> n = n' /\ p = p').
Proof.
  intros I H H'. destruct (shows_at l n p a I H) as (r & R & ->), (shows_at l n' p' a' I H') as (r' & R' & ->).
  split; [|intros (<- & <-); congruence].
  intros E. pose proof (offset_bound p). pose proof (offset_bound p').
  destruct (string_dec n n') as [<-|N].
  - split; [reflexivity|]. rewrite R in R'. injection R' as <-. apply offset_inj. lia.
  - pose proof (inv_apart _ _ I n n' r r' N R R'). lia.
Qed.

(** What a handle writes to on the side of the joints are variables of the joints. *)
Lemma targets_shown K i l h a : inv A l -> connects A K i l h -> toward_joints K = true -> In a (targets A K h) ->
  exists n p, In n (map ji_name (ti_joints i)) /\ deals_with K p /\ shows A l n p a.
Proof.
  intros I (_ & _ & C) T H. unfold targets, target_data in H. rewrite T in H. apply in_flat_map in H. destruct H as (q & Hq & H).
  destruct (commands K) as [k|] eqn:EK.
  - rewrite (command_quantities A K h k EK) in Hq. destruct Hq as [<-|[]].
    destruct C as (ma & acts & mj & jnts & ms & _ & _ & E3 & E4 & _ & _ & _ & S2 & _). rewrite S2, in_addrs in H.
    destruct H as (x & Hx & [= <-]). destruct (entries_in' _ _ _ _ E4 Hx) as (n & Hn & F).
    exists n, (CommandOf k). split; [exact Hn|]. split; [exact EK|]. exists mj, x. auto.
  - destruct C as (ma & acts & mj & jnts & E1 & E2 & E3 & E4 & S1 & S2 & S3 & S4 & S5 & S6 & S7 & S8 & S9 & S10 & S11 & S12).
    destruct q; [rewrite S2 in H | rewrite S4 in H | rewrite S6 in H | rewrite S9 in H | rewrite S12 in H];
      rewrite in_addrs in H; destruct H as (x & Hx & E); destruct (entries_in' _ _ _ _ E4 Hx) as (n & Hn & F);
      [exists n, (StateOf Position) | exists n, (StateOf Velocity) | exists n, (StateOf Effort) | exists n, (StateOf AbsolutePosition) | exists n, (StateOf TorqueSensor)];
      (split; [exact Hn|]; split; [exact EK|]; exists mj, x; split; [exact E3|]; split; [exact F|]); cbn; congruence.
Qed.
End Vars.
