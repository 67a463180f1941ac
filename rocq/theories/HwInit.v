(** Controller initialisation: reported claims. *)
From Coq Require Import Sorted.
From Verif Require Import HwTypes SMap SMapProofs HwModel HwSpec HwProofs HwMgr HwBuilt.

Definition same_maps (w w' : world) : Prop := w_next w' = w_next w /\ forall i, ho_map (w_obj w' i) = ho_map (w_obj w i).
Lemma same_maps_refl w : same_maps w w. Proof. split; auto. Qed.
Lemma same_maps_trans a b c : same_maps a b -> same_maps b c -> same_maps a c.
Proof. intros [A1 A2] [B1 B2]. split; [congruence|]. intros i. rewrite B2. apply A2. Qed.
Lemma same_maps_le w w' : same_maps w w' -> world_le w w'.
Proof. intros [A B]. split; [lia|auto]. Qed.

Definition claims_sorted (w : world) (i : nat) : Prop := StronglySorted slt (ho_claims (w_obj w i)).

Lemma get_handle_cases c o n o' r : hw_get_handle c o n = (o', r) ->
  ho_map o' = ho_map o /\ (r = None <-> rm_get (ho_map o) n = None) /\ (r = None -> o' = o) /\
  (r <> None -> forall x, In x (ho_claims o') <-> In x (ho_claims o) \/ (c = true /\ x = n)) /\
  (StronglySorted slt (ho_claims o) -> StronglySorted slt (ho_claims o')).
Proof.
  unfold hw_get_handle. destruct (rm_get (ho_map o) n) as [h|] eqn:E; intros [= <- <-].
  - destruct c; cbn [claim ho_map ho_claims].
    + split; [reflexivity|]. split; [split; discriminate|]. split; [discriminate|]. split; [|apply set_insert_sorted].
      intros _ x. rewrite set_insert_in. tauto.
    + split; [reflexivity|]. split; [split; discriminate|]. split; [discriminate|]. split; [|auto]. intros _ x. split; [auto|]. intros [H|[H _]]; [auto|discriminate].
  - repeat split; auto; try tauto; congruence.
Qed.

Lemma run_calls_ok {R} (locate : R -> option (nat * bool)) l : forall w w' b, run_calls locate l w = (w', b) ->
  same_maps w w' /\ (forall i, claims_sorted w i -> claims_sorted w' i) /\
  (b = true -> forall i n, In n (ho_claims (w_obj w' i)) <->
     In n (ho_claims (w_obj w i)) \/ exists r caught, In (r, n, caught) l /\ locate r = Some (i, true) /\ rm_get (ho_map (w_obj w i)) n <> None).
Proof.
  induction l as [|[[r n] caught] l IH]; intros w w' b H; cbn in H.
  - injection H as <- <-. split; [apply same_maps_refl|]. split; [auto|]. intros _ i n. split; [auto|]. intros [A|(? & ? & [] & _)]. exact A.
  - destruct (locate r) as [[i c]|] eqn:El.
    + destruct (hw_get_handle c (w_obj w i) n) as [o q] eqn:Eg. destruct (get_handle_cases _ _ _ _ _ Eg) as (A1 & A2 & A3 & A4 & A5).
      destruct q as [h|].
      * destruct (IH _ _ _ H) as (B1 & B2 & B3).
        assert (Hm : forall j, ho_map (w_obj (set_obj w i o) j) = ho_map (w_obj w j)).
        { intros j. cbn. destruct (Nat.eqb_spec j i); [subst; exact A1|reflexivity]. }
        split; [eapply same_maps_trans; [|exact B1]; split; [reflexivity|exact Hm]|]. split.
        { intros j Hj. apply B2. unfold claims_sorted in *. cbn. destruct (Nat.eqb_spec j i); [subst; auto|exact Hj]. }
        intros Hb j x. rewrite (B3 Hb j x), Hm.
        assert (E : In x (ho_claims (w_obj (set_obj w i o) j)) <-> In x (ho_claims (w_obj w j)) \/ (j = i /\ c = true /\ x = n)).
        { cbn. destruct (Nat.eqb_spec j i) as [->|N]; [|tauto]. rewrite A4 by discriminate. tauto. }
        rewrite E. split.
        -- intros [[Y|(-> & -> & ->)]|(r' & c' & Z1 & Z2 & Z3)]; [auto| |right; exists r', c'; split; [right; exact Z1|auto]].
           right. exists r, caught. split; [left; reflexivity|]. split; [exact El|]. intros F. apply A2 in F. discriminate.
        -- intros [Y|(r' & c' & [Z1|Z1] & Z2 & Z3)]; [auto| |right; exists r', c'; auto].
           injection Z1 as <- <- <-. rewrite El in Z2. injection Z2 as -> ->. left. right. auto.
      * destruct caught.
        -- destruct (IH _ _ _ H) as (B1 & B2 & B3). split; [exact B1|]. split; [exact B2|]. intros Hb j x. rewrite (B3 Hb j x). split.
           ++ intros [Y|(r' & c' & Z1 & Z2)]; [auto|right; exists r', c'; split; [right; exact Z1|exact Z2]].
           ++ intros [Y|(r' & c' & [Z1|Z1] & Z2 & Z3)]; [auto| |right; exists r', c'; auto]. injection Z1 as <- <- <-.
              rewrite El in Z2. injection Z2 as -> ->. exfalso. apply Z3, A2. reflexivity.
        -- injection H as <- <-. split; [apply same_maps_refl|]. split; [auto|discriminate].
    + destruct (IH _ _ _ H) as (B1 & B2 & B3). split; [exact B1|]. split; [exact B2|]. intros Hb j x. rewrite (B3 Hb j x). split.
      * intros [Y|(r' & c' & Z1 & Z2)]; [auto|right; exists r', c'; split; [right; exact Z1|exact Z2]].
      * intros [Y|(r' & c' & [Z1|Z1] & Z2 & Z3)]; [auto| |right; exists r', c'; auto]. injection Z1 as <- <- <-. congruence.
Qed.

Lemma run_body_ok {R} (locate : R -> option (nat * bool)) b w w' v : run_body locate b w = (w', v) ->
  same_maps w w' /\ (forall i, claims_sorted w i -> claims_sorted w' i) /\
  (v <> None -> v = b_ret b /\ forall i n, In n (ho_claims (w_obj w' i)) <->
     In n (ho_claims (w_obj w i)) \/ exists r caught, In (r, n, caught) (b_calls b) /\ locate r = Some (i, true) /\ rm_get (ho_map (w_obj w i)) n <> None).
Proof.
  unfold run_body. destruct (run_calls locate (b_calls b) w) as [w1 ok] eqn:E. intros [= <- <-].
  destruct (run_calls_ok _ _ _ _ _ E) as (A & B & C). split; [exact A|]. split; [exact B|]. destruct ok; [|congruence]. auto.
Qed.

Lemma run_both_ok {R} (locate : R -> option (nat * bool)) b1 b2 w w' v : run_both locate b1 b2 w = (w', v) ->
  same_maps w w' /\ (forall i, claims_sorted w i -> claims_sorted w' i) /\
  (v = Some true -> b_ret b1 = Some true /\ b_ret b2 = Some true /\ forall i n, In n (ho_claims (w_obj w' i)) <->
     In n (ho_claims (w_obj w i)) \/ exists r, calls_of b1 b2 r n /\ locate r = Some (i, true) /\ rm_get (ho_map (w_obj w i)) n <> None).
Proof.
  unfold run_both. destruct (run_body locate b1 w) as [w1 v1] eqn:E1. intros H.
  destruct (run_body_ok _ _ _ _ _ E1) as (A1 & A2 & A3).
  destruct v1 as [[|]|]; [|injection H as <- <-; split; [exact A1|]; split; [exact A2|discriminate]..].
  destruct (run_body_ok _ _ _ _ _ H) as (B1 & B2 & B3).
  split; [eapply same_maps_trans; eauto|]. split; [auto|]. intros ->.
  destruct A3 as (E & A3); [discriminate|]. destruct B3 as (E' & B3); [discriminate|]. split; [auto|]. split; [auto|].
  intros i n. rewrite B3, A3. destruct A1 as [_ Hm]. rewrite Hm. unfold calls_of. split.
  - intros [[Y|(r & c & Z1 & Z2)]|(r & c & Z1 & Z2)]; [auto|right; exists r; split; [exists c; apply in_or_app; auto|exact Z2]..].
  - intros [Y|(r & (c & Z1) & Z2)]; [auto|]. apply in_app_or in Z1 as [Z1|Z1]; [left; right; eauto|right; eauto].
Qed.

(** Registered in one of the interfaces. *)
Lemma first_some_iff {A B} (f : A -> option B) l : first_some f l <> None <-> exists a, In a l /\ f a <> None.
Proof.
  induction l as [|a l IH]; cbn; [split; [congruence|intros (? & [] & _)]|]. destruct (f a) eqn:E.
  - split; [|discriminate]. intros _. exists a. split; [auto|congruence].
  - rewrite IH. split; [intros (x & Hx & Hf); eauto|]. intros (x & [<-|Hx] & Hf); [congruence|eauto].
Qed.
Lemma first_rev {A B} (f : A -> option B) l : first_some f (rev l) <> None <-> exists a, In a l /\ f a <> None.
Proof. rewrite first_some_iff. split; intros (a & Ha & H); exists a; (split; [|exact H]); apply in_rev; auto. rewrite rev_involutive. exact Ha. Qed.

Lemma sorted_ok w i : (forall i, claims_sorted w i) -> forall o, StronglySorted slt (ho_claims o) -> claims_sorted (set_obj w i o) i.
Proof. intros _ o H. unfold claims_sorted. cbn. rewrite Nat.eqb_refl. exact H. Qed.

Lemma init_request_spec k T others b1 b2 m w m1 w1 p m' w' r :
  get k T m w = (m1, w1, p) -> init_request k T others b1 b2 m w = (m', w', r) ->
  m' = m1 /\ (p = None -> r = OutFalse /\ w' = w1) /\
  (forall hw, p = Some hw -> same_maps w1 w' /\
     (forall claims, r = OutOk claims -> b_ret b1 = Some true /\ b_ret b2 = Some true /\ ho_claims (w_obj w' hw) = [] /\
        exists res, claims = [mkIface T res] /\ increasing res /\
        forall n, In n res <-> rm_get (ho_map (w_obj w1 hw)) n <> None /\
           ((tk_claiming k = true /\ calls_of b1 b2 None n) \/ exists j, others j = Some (hw, true) /\ calls_of b1 b2 (Some j) n))).
Proof.
  unfold init_request. intros -> H. destruct p as [hw|]; [|injection H as <- <- <-; split; [reflexivity|]; split; [auto|discriminate]].
  cbv zeta in H. set (w2 := set_obj w1 hw (clear_claims (w_obj w1 hw))) in *.
  set (locate := fun r : option nat => match r with None => Some (hw, tk_claiming k) | Some j => others j end) in *.
  assert (M2 : same_maps w1 w2). { split; [reflexivity|]. intros i. cbn. destruct (Nat.eqb_spec i hw); [subst; reflexivity|reflexivity]. }
  destruct (run_both locate b1 b2 w2) as [w3 v] eqn:E. destruct (run_both_ok _ _ _ _ _ _ E) as (A1 & A2 & A3).
  assert (M3 : same_maps w1 w3) by (eapply same_maps_trans; eauto).
  assert (C2 : ho_claims (w_obj w2 hw) = []) by (cbn; rewrite Nat.eqb_refl; reflexivity).
  destruct v as [[|]|].
  - injection H as <- <- <-. split; [reflexivity|]. split; [discriminate|]. intros ? [= <-]. split.
    + eapply same_maps_trans; [exact M3|]. split; [reflexivity|]. intros i. cbn. destruct (Nat.eqb_spec i hw); [subst; reflexivity|reflexivity].
    + intros claims [= <-]. destruct (A3 eq_refl) as (R1 & R2 & A4). split; [exact R1|]. split; [exact R2|]. split; [cbn; rewrite Nat.eqb_refl; reflexivity|].
      exists (ho_claims (w_obj w3 hw)). split; [reflexivity|]. split.
      * apply sorted_increasing, A2. unfold claims_sorted. rewrite C2. constructor.
      * intros n. rewrite A4, C2, (proj2 M2). split.
        -- intros [[]|([j|] & Z1 & Z2 & Z3)]; cbn in Z2; (split; [exact Z3|]); [right; eauto|left]. injection Z2 as ->. auto.
        -- intros (Z3 & [(Z1 & Z2)|(j & Z1 & Z2)]); right; [exists None|exists (Some j)]; cbn; rewrite ?Z1; auto.
  - injection H as <- <- <-. split; [reflexivity|]. split; [discriminate|]. intros ? [= <-]. split; [exact M3|discriminate].
  - injection H as <- <- <-. split; [reflexivity|]. split; [discriminate|]. intros ? [= <-]. split; [exact M3|discriminate].
Qed.

(** ** several interfaces *)
Lemma exposed_same kd m m' : same_regs m m' -> forall T, exposed kd m' T <-> exposed kd m T.
Proof. intros (A & _ & _ & B & _) T. unfold exposed. rewrite A, B. tauto. Qed.
Lemma same_regs_refl m : same_regs m m. Proof. repeat split. Qed.
Lemma same_regs_trans a b c : same_regs a b -> same_regs b c -> same_regs a c.
Proof.
  intros (A1 & A2 & A3 & A4 & A5) (B1 & B2 & B3 & B4 & B5).
  split; [intros T; rewrite B1; apply A1|]. split; [intros T; rewrite B2; apply A2|]. split; [rewrite B3; exact A3|].
  split; intros T; [rewrite B4; apply A4|rewrite B5; apply A5].
Qed.

Lemma has_interfaces_spec kd Ts : forall m w m' w' b, built kd w m -> has_interfaces kd Ts m w = (m', w', b) ->
  built kd w' m' /\ world_le w w' /\ same_regs m m' /\ (b = true <-> forall T, In T Ts -> exposed kd m T).
Proof.
  induction Ts as [|T Ts IH]; intros m w m' w' b Hb H; cbn in H.
  - injection H as <- <- <-. split; [exact Hb|]. split; [apply world_le_refl|]. split; [apply same_regs_refl|]. split; [intros _ T []|auto].
  - destruct (get (kd T) T m w) as [[m1 w1] p] eqn:Eg. pose proof (exposed_iff _ _ _ _ _ _ _ Hb Eg) as Ex.
    destruct (get_frame _ _ _ _ _ _ _ Eg) as (F1 & _ & F3 & _). assert (Hb1 : built kd w1 m1) by (eapply BGet; eauto).
    destruct p as [i|].
    + destruct (IH _ _ _ _ _ Hb1 H) as (A1 & A2 & A3 & A4). split; [exact A1|]. split; [eapply world_le_trans; eauto|]. split; [eapply same_regs_trans; eauto|].
      rewrite A4. split.
      * intros X T' [<-|HT]; [apply Ex; discriminate|]. apply (exposed_same kd m m1 F3), X, HT.
      * intros X T' HT. apply (exposed_same kd m m1 F3), X. right; exact HT.
    + injection H as <- <- <-. split; [exact Hb1|]. split; [exact F1|]. split; [exact F3|]. split; [discriminate|].
      intros X. exfalso. apply (proj2 Ex); [apply X; left; reflexivity|reflexivity].
Qed.

Lemma stands_le kd m w w1 w2 T i : world_le w1 w2 -> stands kd m w w1 T i -> stands kd m w w2 T i.
Proof.
  intros [L1 L2] [A B]. split; [lia|]. destruct (tk_rm (kd T)); [|exact B]. rewrite (L2 i A). exact B.
Qed.

Lemma get_stands kd m w T m1 w1 i : built kd w m -> get (kd T) T m w = (m1, w1, Some i) -> stands kd m w w1 T i.
Proof.
  intros Hb Hg. unfold stands. destruct (tk_rm (kd T)) eqn:Hk.
  - destruct (lookup_rm _ _ _ _ _ _ _ Hb Hk Hg) as (_ & A & _). destruct (A i eq_refl) as (B1 & B2 & B3). auto.
  - rewrite (lookup_single _ _ _ _ Hb Hk) in Hg. injection Hg as <- <- E. split; [|exact E].
    destruct (built_inv _ _ _ Hb) as (_ & Ho & _). pose proof (ok_leaves _ _ _ _ (Ho T)) as Hl. rewrite Forall_forall in Hl. apply Hl. apply sole_in; exact E.
Qed.

Lemma first_some_ext {A B} (f g : A -> option B) l : (forall a, In a l -> f a = g a) -> first_some f l = first_some g l.
Proof. intros H. induction l as [|a l IH]; [reflexivity|]. cbn. rewrite (H a) by (left; reflexivity). rewrite IH; [reflexivity|]. intros x Hx. apply H; right; exact Hx. Qed.

Lemma stands_base kd m w m1 w1 w2 T i : built kd w m -> world_le w w1 -> same_regs m m1 -> stands kd m1 w1 w2 T i -> stands kd m w w2 T i.
Proof.
  intros Hb L (R1 & _ & _ & R4 & _) [A B]. split; [exact A|]. destruct (tk_rm (kd T)).
  - rewrite R1 in B. destruct B as [B1 B2]. split; [|exact B2]. intros n. rewrite B1. apply first_some_ext. intros j Hj. rewrite (proj2 L); [reflexivity|].
    destruct (built_inv _ _ _ Hb) as (_ & Ho & _). pose proof (ok_leaves _ _ _ _ (Ho T)) as Hl. rewrite Forall_forall in Hl. apply Hl. apply in_rev; exact Hj.
  - rewrite <- R4. exact B.
Qed.

Lemma flat_register k w out T i : exists o, register_interface k w out T (Some i) = Some o /\
  forall T', flat_get o T' = if String.eqb T' T then Some i else flat_get out T'.
Proof.
  destruct out as [ifaces combo num res subs]. cbn. destruct (tk_rm k); [|destruct (sfind T res)];
  eexists; (split; [reflexivity|]); intros T'; cbn; rewrite sfind_sset; destruct (String.eqb_spec T' T); reflexivity.
Qed.

Lemma extract_spec kd Ts : forall m w out m' w' out', built kd w m -> extract kd Ts m w out = (m', w', out') ->
  built kd w' m' /\ world_le w w' /\ same_regs m m' /\
  (forall T, In T Ts -> exposed kd m T -> exists i, flat_get out' T = Some i /\ stands kd m w w' T i) /\
  (forall T, ~ (In T Ts /\ exposed kd m T) -> flat_get out' T = flat_get out T).
Proof.
  induction Ts as [|T Ts IH]; intros m w out m' w' out' Hb H; cbn in H.
  - injection H as <- <- <-. split; [exact Hb|]. split; [apply world_le_refl|]. split; [apply same_regs_refl|]. split; [intros T []|auto].
  - destruct (get (kd T) T m w) as [[m1 w1] p] eqn:Eg. pose proof (exposed_iff _ _ _ _ _ _ _ Hb Eg) as Ex.
    destruct (get_frame _ _ _ _ _ _ _ Eg) as (F1 & _ & F3 & _). assert (Hb1 : built kd w1 m1) by (eapply BGet; eauto).
    pose proof (exposed_same kd m m1 F3) as Es.
    destruct p as [i|].
    + destruct (flat_register (kd T) w1 out T i) as (o & Eo & Fo). rewrite Eo in H.
      destruct (IH _ _ _ _ _ _ Hb1 H) as (A1 & A2 & A3 & A4 & A5). split; [exact A1|]. split; [eapply world_le_trans; eauto|]. split; [eapply same_regs_trans; eauto|]. split.
      * intros T' HT He. destruct (in_dec string_dec T' Ts) as [Hin|Hin].
        -- destruct (A4 T' Hin) as (j & Hj & Hs); [apply Es; exact He|]. exists j. split; [exact Hj|]. eapply stands_base; eauto.
        -- destruct HT as [<-|HT]; [|contradiction]. exists i. split.
           ++ rewrite A5 by tauto. rewrite Fo, String.eqb_refl. reflexivity.
           ++ eapply stands_le; [exact A2|]. eapply get_stands; eauto.
      * intros T' HN. rewrite A5.
        -- rewrite Fo. destruct (String.eqb_spec T' T) as [->|]; [|reflexivity]. exfalso. apply HN. split; [left; reflexivity|]. apply Ex; discriminate.
        -- intros [X1 X2]. apply HN. split; [right; exact X1|apply Es; exact X2].
    + destruct (IH _ _ _ _ _ _ Hb1 H) as (A1 & A2 & A3 & A4 & A5). split; [exact A1|]. split; [eapply world_le_trans; eauto|]. split; [eapply same_regs_trans; eauto|].
      assert (Ne : ~ exposed kd m T) by (intros X; apply Ex in X; congruence). split.
      * intros T' HT He. destruct HT as [<-|HT]; [contradiction|].
        destruct (A4 T' HT) as (j & Hj & Hs); [apply Es; exact He|]. exists j. split; [exact Hj|]. eapply stands_base; eauto.
      * intros T' HN. apply A5. intros [X1 X2]. apply HN. split; [right; exact X1|apply Es; exact X2].
Qed.

Lemma clear_all_cons T Ts out w : clear_all (T :: Ts) out w =
  clear_all Ts out (match flat_get out T with Some i => set_obj w i (clear_claims (w_obj w i)) | None => w end).
Proof. reflexivity. Qed.
Lemma clear_all_spec Ts out : forall w, let w' := clear_all Ts out w in
  same_maps w w' /\ forall i, ho_claims (w_obj w' i) = [] \/ ho_claims (w_obj w' i) = ho_claims (w_obj w i).
Proof.
  induction Ts as [|T Ts IH]; intros w; cbn zeta; [split; [apply same_maps_refl|auto]|]. rewrite clear_all_cons.
  destruct (flat_get out T) as [i|].
  - destruct (IH (set_obj w i (clear_claims (w_obj w i)))) as [A B]. split.
    + eapply same_maps_trans; [|exact A]. split; [reflexivity|]. intros j. cbn. destruct (Nat.eqb_spec j i); [subst; reflexivity|reflexivity].
    + intros j. destruct (B j) as [E|E]; [left; exact E|]. rewrite E. cbn. destruct (Nat.eqb_spec j i); [left; reflexivity|right; reflexivity].
  - apply IH.
Qed.
Lemma clear_all_done Ts out : forall w T i, In T Ts -> flat_get out T = Some i -> ho_claims (w_obj (clear_all Ts out w) i) = [].
Proof.
  induction Ts as [|T0 Ts IH]; intros w T i HT Hf; [contradiction|]. rewrite clear_all_cons.
  destruct HT as [->|HT]; [|eapply IH; eauto]. rewrite Hf.
  destruct (clear_all_spec Ts out (set_obj w i (clear_claims (w_obj w i)))) as [_ B]. destruct (B i) as [E|E]; [exact E|].
  rewrite E. cbn. rewrite Nat.eqb_refl. reflexivity.
Qed.

Lemma multi_spec kd optional Ts b1 b2 m w m' w' seen r : built kd w m -> multi_init kd optional Ts b1 b2 m w = (m', w', seen, r) ->
  built kd w' m' /\ same_regs m m' /\
  (seen = None <-> optional = false /\ exists T, In T Ts /\ ~ exposed kd m T) /\
  (seen = None -> r = OutFalse) /\
  (forall out, seen = Some out ->
     (forall T, In T Ts -> exposed kd m T -> exists i, flat_get out T = Some i /\ stands kd m w w' T i) /\
     (forall T, ~ (In T Ts /\ exposed kd m T) -> flat_get out T = None) /\
     (forall claims, r = OutOk claims ->
        b_ret b1 = Some true /\ b_ret b2 = Some true /\
        (exists ress, claims = map (fun x => mkIface (fst x) (snd x)) ress /\
           map fst ress = filter (fun T => match flat_get out T with Some _ => true | None => false end) Ts /\
           forall T res, In (T, res) ress -> increasing res /\ forall n, In n res <->
              exists T', calls_of b1 b2 T' n /\ tk_claiming (kd T') = true /\ flat_get out T' = flat_get out T /\
                exists i, flat_get out T = Some i /\ rm_get (ho_map (w_obj w' i)) n <> None) /\
        (forall T i, In T Ts -> flat_get out T = Some i -> ho_claims (w_obj w' i) = []))).
Proof.
  unfold multi_init. intros Hb H.
  destruct (if optional then (m, w, true) else has_interfaces kd Ts m w) as [[m1 w1] okk] eqn:E1.
  assert (S1 : built kd w1 m1 /\ world_le w w1 /\ same_regs m m1 /\ (okk = false <-> optional = false /\ exists T, In T Ts /\ ~ exposed kd m T)).
  { destruct optional.
    - injection E1 as <- <- <-. split; [exact Hb|]. split; [apply world_le_refl|]. split; [apply same_regs_refl|]. split; [discriminate|intros [X _]; discriminate].
    - destruct (has_interfaces_spec _ _ _ _ _ _ _ Hb E1) as (A1 & A2 & A3 & A4). split; [exact A1|]. split; [exact A2|]. split; [exact A3|].
      assert (D : forall T, exposed kd m T \/ ~ exposed kd m T).
      { intros T. unfold exposed. destruct (tk_rm (kd T)); [destruct (leaves T m)|destruct (sole T m)]; [right; auto|left; discriminate|left; discriminate|right; auto]. }
      split.
      + intros ->. split; [reflexivity|].
        assert (X : (forall T, In T Ts -> exposed kd m T) \/ exists T, In T Ts /\ ~ exposed kd m T).
        { clear - D. induction Ts as [|T Ts IH]; [left; intros T []|]. destruct (D T) as [HT|HT]; [|right; exists T; split; [left; reflexivity|exact HT]].
          destruct IH as [IH|(x & Hx & Hn)]; [left; intros x [<-|Hx]; auto|right; exists x; split; [right; exact Hx|exact Hn]]. }
        destruct X as [X|X]; [|exact X]. apply A4 in X. discriminate.
      + intros (_ & T & HT & Hn). destruct okk; [|reflexivity]. exfalso. apply Hn. apply (proj1 A4 eq_refl T HT). }
  destruct S1 as (Hb1 & L1 & R1 & Ok1). destruct okk.
  2:{ injection H as <- <- <- <-. split; [exact Hb1|]. split; [exact R1|]. split; [rewrite <- Ok1; tauto|]. split; [auto|discriminate]. }
  destruct (extract kd Ts m1 w1 mgr_new) as [[m2 w2] out] eqn:E2. cbv zeta in H.
  destruct (extract_spec _ _ _ _ _ _ _ _ Hb1 E2) as (Hb2 & L2 & R2 & X1 & X2).
  pose proof (exposed_same kd m m1 R1) as Es.
  set (w3 := clear_all Ts out w2) in *. set (locate := fun T => match flat_get out T with Some i => Some (i, tk_claiming (kd T)) | None => None end) in *.
  destruct (clear_all_spec Ts out w2) as [M3 _]. fold w3 in M3.
  destruct (run_both locate b1 b2 w3) as [w4 v] eqn:E3. destruct (run_both_ok _ _ _ _ _ _ E3) as (M4 & S4 & C4).
  assert (W' : same_maps w4 w' /\ m' = m2 /\ seen = Some out).
  { destruct v as [[|]|]; injection H as <- <- <- <-; (split; [|auto]); [apply clear_all_spec|apply same_maps_refl..]. }
  destruct W' as (M5 & -> & ->).
  assert (M : same_maps w2 w') by (eapply same_maps_trans; [eapply same_maps_trans; eauto|exact M5]).
  assert (X1' : forall T, In T Ts -> exposed kd m T -> exists i, flat_get out T = Some i /\ stands kd m w w' T i).
  { intros T HT He. destruct (X1 T HT) as (i & Hi & Hs); [apply Es; exact He|]. exists i. split; [exact Hi|]. eapply stands_le; [apply same_maps_le; exact M|]. eapply stands_base; eauto. }
  assert (X2' : forall T, ~ (In T Ts /\ exposed kd m T) -> flat_get out T = None).
  { intros T HN. rewrite X2; [reflexivity|]. intros [A B]. apply HN. split; [exact A|apply Es; exact B]. }
  split.
  { eapply BOther; [exact Hb2|apply same_maps_le; exact M|]. apply world_ok_wf. intros i. rewrite (proj2 M). destruct (built_inv _ _ _ Hb2) as (Hw & _). apply world_ok_wf in Hw. apply Hw. }
  split; [eapply same_regs_trans; eauto|]. split.
  { split; [discriminate|]. intros X. apply Ok1 in X. discriminate. }
  split; [discriminate|]. intros ? [= <-]. split; [exact X1'|]. split; [exact X2'|].
  intros claims ->. destruct v as [[|]|]; try discriminate. injection H as <- <-.
  destruct (C4 eq_refl) as (B1 & B2 & C5). split; [exact B1|]. split; [exact B2|]. split; [|apply clear_all_done].
  exists (flat_map (fun T => match flat_get out T with Some i => [(T, ho_claims (w_obj w4 i))] | None => [] end) Ts). split; [|split].
  - unfold populate. clear. induction Ts as [|T Ts IH]; [reflexivity|]. cbn. rewrite map_app, <- IH. destruct (flat_get out T); reflexivity.
  - clear. induction Ts as [|T Ts IH]; [reflexivity|]. cbn. rewrite map_app, IH. destruct (flat_get out T); reflexivity.
  - intros T res Hin. apply in_flat_map in Hin as (T0 & HT0 & Hin). destruct (flat_get out T0) as [i|] eqn:Ef; [|contradiction].
    destruct Hin as [[= <- <-]|[]].
    assert (C3 : ho_claims (w_obj w3 i) = []) by (eapply clear_all_done; eauto).
    split; [apply sorted_increasing, S4; unfold claims_sorted; rewrite C3; constructor|].
    intros n. rewrite C5, C3, (proj2 M3). split.
    + intros [[]|(T' & Z1 & Z2 & Z3)]. exists T'. unfold locate in Z2. destruct (flat_get out T') as [i'|]; [|discriminate]. injection Z2 as -> Z2.
      split; [exact Z1|]. split; [exact Z2|]. split; [congruence|]. exists i. split; [congruence|]. rewrite (proj2 M). exact Z3.
    + intros (T' & Z1 & Z2 & Z3 & i' & Z4 & Z5). right. exists T'. split; [exact Z1|]. rewrite (proj2 M) in Z5. unfold locate.
      rewrite Z3. assert (Ei : i' = i) by congruence. subst i'. rewrite ?Z4, ?Ef, Z2. auto.
Qed.

(** ** success *)
Notation fine := calls_succeed.
Lemma run_calls_true {R} (locate : R -> option (nat * bool)) l : forall w w' b, run_calls locate l w = (w', b) ->
  (b = true <-> forall r n i c, In (r, n, false) l -> locate r = Some (i, c) -> rm_get (ho_map (w_obj w i)) n <> None).
Proof.
  induction l as [|[[r n] caught] l IH]; intros w w' b H; cbn in H.
  - injection H as <- <-. split; [intros _ ? ? ? ? []|reflexivity].
  - destruct (locate r) as [[i c]|] eqn:El.
    + destruct (hw_get_handle c (w_obj w i) n) as [o q] eqn:Eg. destruct (get_handle_cases _ _ _ _ _ Eg) as (A1 & A2 & _).
      destruct q as [h|].
      * rewrite (IH _ _ _ H).
        assert (Hm : forall j, ho_map (w_obj (set_obj w i o) j) = ho_map (w_obj w j)).
        { intros j. cbn. destruct (Nat.eqb_spec j i); [subst; exact A1|reflexivity]. }
        split.
        -- intros X r' n' i' c' [Y|Y] Z; [|rewrite <- Hm; eauto]. injection Y as <- <- ->. rewrite El in Z. injection Z as <- <-.
           intros F. apply A2 in F. discriminate.
        -- intros X r' n' i' c' Y Z. rewrite Hm. eapply X; [right; exact Y|exact Z].
      * destruct caught.
        -- rewrite (IH _ _ _ H). split; [intros X r' n' i' c' [Y|Y] Z; [discriminate|eauto]|intros X r' n' i' c' Y Z; eapply X; [right; exact Y|exact Z]].
        -- injection H as <- <-. split; [discriminate|]. intros X. exfalso. eapply X; [left; reflexivity|exact El|]. apply A2; reflexivity.
    + rewrite (IH _ _ _ H). split.
      * intros X r' n' i' c' [Y|Y] Z; [|eauto]. injection Y as <- <- ->. congruence.
      * intros X r' n' i' c' Y Z; eapply X; [right; exact Y|exact Z].
Qed.
Lemma fine_same {R} (locate : R -> option (nat * bool)) w w' b : same_maps w w' -> fine locate w' b <-> fine locate w b.
Proof. intros [_ H]. unfold fine. split; intros X r n i c Y Z; [rewrite <- H|rewrite H]; eauto. Qed.
Lemma run_body_true {R} (locate : R -> option (nat * bool)) b w w' v : run_body locate b w = (w', v) ->
  (v = Some true <-> b_ret b = Some true /\ fine locate w b).
Proof.
  unfold run_body. destruct (run_calls locate (b_calls b) w) as [w1 okk] eqn:E. intros [= <- <-].
  pose proof (run_calls_true _ _ _ _ _ E) as T. fold (fine locate w b) in T. destruct okk; [tauto|]. split; [discriminate|]. intros [_ X]. apply T in X. discriminate.
Qed.
Lemma run_both_true {R} (locate : R -> option (nat * bool)) b1 b2 w w' v : run_both locate b1 b2 w = (w', v) ->
  (v = Some true <-> (b_ret b1 = Some true /\ fine locate w b1) /\ (b_ret b2 = Some true /\ fine locate w b2)).
Proof.
  unfold run_both. destruct (run_body locate b1 w) as [w1 v1] eqn:E1. intros H.
  pose proof (run_body_true _ _ _ _ _ E1) as T1. destruct (run_body_ok _ _ _ _ _ E1) as (M & _).
  destruct v1 as [[|]|].
  - rewrite (run_body_true _ _ _ _ _ H), (fine_same _ _ _ _ M). tauto.
  - injection H as <- <-. split; [discriminate|]. intros [X _]. apply T1 in X. discriminate.
  - injection H as <- <-. split; [discriminate|]. intros [X _]. apply T1 in X. discriminate.
Qed.

Lemma run_body_false {R} (locate : R -> option (nat * bool)) b w w' v : run_body locate b w = (w', v) ->
  (v = Some false <-> b_ret b = Some false /\ fine locate w b).
Proof.
  unfold run_body. destruct (run_calls locate (b_calls b) w) as [w1 okk] eqn:E. intros [= <- <-].
  pose proof (run_calls_true _ _ _ _ _ E) as T. fold (fine locate w b) in T. destruct okk; [tauto|]. split; [discriminate|]. intros [_ X]. apply T in X. discriminate.
Qed.
Lemma run_both_false {R} (locate : R -> option (nat * bool)) b1 b2 w w' v : run_both locate b1 b2 w = (w', v) ->
  (v = Some false <-> fine locate w b1 /\ (b_ret b1 = Some false \/ b_ret b1 = Some true /\ b_ret b2 = Some false /\ fine locate w b2)).
Proof.
  unfold run_both. destruct (run_body locate b1 w) as [w1 v1] eqn:E1. intros H.
  pose proof (run_body_true _ _ _ _ _ E1) as T1. pose proof (run_body_false _ _ _ _ _ E1) as F1.
  destruct (run_body_ok _ _ _ _ _ E1) as (M & _).
  destruct v1 as [[|]|].
  - rewrite (run_body_false _ _ _ _ _ H), (fine_same _ _ _ _ M).
    assert (A : b_ret b1 = Some true /\ fine locate w b1) by (apply T1; reflexivity). destruct A as [-> A]. intuition discriminate.
  - injection H as <- <-. assert (A : b_ret b1 = Some false /\ fine locate w b1) by (apply F1; reflexivity). tauto.
  - injection H as <- <-. split; [discriminate|]. intros [X [Y|[Y _]]].
    + assert (Z : None = Some false) by (apply F1; auto). discriminate Z.
    + assert (Z : None = Some true) by (apply T1; auto). discriminate Z.
Qed.

(** A body's calls all find their resource, or it handles the exception. *)
Lemma init_request_success k T others b1 b2 m w m1 w1 hw m' w' r :
  get k T m w = (m1, w1, Some hw) -> init_request k T others b1 b2 m w = (m', w', r) ->
  ((exists claims, r = OutOk claims) <->
   let locate r := match r with None => Some (hw, tk_claiming k) | Some j => others j end in
   (b_ret b1 = Some true /\ fine locate w1 b1) /\ (b_ret b2 = Some true /\ fine locate w1 b2)).
Proof.
  unfold init_request. intros -> H. cbv zeta in *. set (w2 := set_obj w1 hw (clear_claims (w_obj w1 hw))) in *.
  set (locate := fun r : option nat => match r with None => Some (hw, tk_claiming k) | Some j => others j end) in *.
  assert (M2 : same_maps w1 w2). { split; [reflexivity|]. intros i. cbn. destruct (Nat.eqb_spec i hw); [subst; reflexivity|reflexivity]. }
  destruct (run_both locate b1 b2 w2) as [w3 v] eqn:E. pose proof (run_both_true _ _ _ _ _ _ E) as Tr.
  rewrite !(fine_same _ _ _ _ M2) in Tr. rewrite <- Tr.
  destruct v as [[|]|]; injection H as <- <- <-; split; try (intros (? & ?); discriminate); try discriminate; eauto.
Qed.
Lemma init_request_false k T others b1 b2 m w m1 w1 hw m' w' r :
  get k T m w = (m1, w1, Some hw) -> init_request k T others b1 b2 m w = (m', w', r) ->
  (r = OutFalse <->
   let locate r := match r with None => Some (hw, tk_claiming k) | Some j => others j end in
   fine locate w1 b1 /\ (b_ret b1 = Some false \/ b_ret b1 = Some true /\ b_ret b2 = Some false /\ fine locate w1 b2)).
Proof.
  unfold init_request. intros -> H. cbv zeta in *. set (w2 := set_obj w1 hw (clear_claims (w_obj w1 hw))) in *.
  set (locate := fun r : option nat => match r with None => Some (hw, tk_claiming k) | Some j => others j end) in *.
  assert (M2 : same_maps w1 w2). { split; [reflexivity|]. intros i. cbn. destruct (Nat.eqb_spec i hw); [subst; reflexivity|reflexivity]. }
  destruct (run_both locate b1 b2 w2) as [w3 v] eqn:E. pose proof (run_both_false _ _ _ _ _ _ E) as Tr.
  rewrite !(fine_same _ _ _ _ M2) in Tr. rewrite <- Tr.
  destruct v as [[|]|]; injection H as <- <- <-; split; try discriminate; reflexivity.
Qed.
