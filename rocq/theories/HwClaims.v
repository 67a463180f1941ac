(** Conflicts by position; initialisation in terms of what the robot provides. *)
From Coq Require Import ListDec.
From Verif Require Import HwTypes SMap SMapProofs ConflictModel ConflictProofs HwModel HwSpec HwProofs HwMgr HwBuilt HwInit.

Lemma nodup_app_iff {A} (a b : list A) : NoDup (a ++ b) <-> NoDup a /\ NoDup b /\ forall x, In x a -> ~ In x b.
Proof.
  induction a as [|x a IH]; cbn; [split; [intros H; repeat split; auto; constructor|tauto]|]. split.
  - intros H. inversion H as [|? ? H1 H2]; subst. apply IH in H2 as (A1 & A2 & A3). rewrite in_app_iff in H1. split; [constructor; tauto|].
    split; [exact A2|]. intros y [<-|Hy]; [tauto|auto].
  - intros (H1 & H2 & H3). inversion H1; subst. constructor; [rewrite in_app_iff; intros [X|X]; [tauto|eapply H3; eauto]|].
    apply IH. repeat split; auto.
Qed.

Definition pos2 (l : list iface_res) (j k : nat) (r : string) : Prop := exists f, nth_error l j = Some f /\ nth_error (ir_res f) k = Some r.
Lemma pos2_in l r : In r (flat_map ir_res l) <-> exists j k, pos2 l j k r.
Proof.
  rewrite in_flat_map. split.
  - intros (f & Hf & Hr). apply In_nth_error in Hf as (j & Hj). apply In_nth_error in Hr as (k & Hk). exists j, k, f. auto.
  - intros (j & k & f & Hj & Hk). exists f. split; eapply nth_error_In; eauto.
Qed.
Lemma pos2_nodup l : NoDup (flat_map ir_res l) <-> forall r j k j' k', pos2 l j k r -> pos2 l j' k' r -> j = j' /\ k = k'.
Proof.
  induction l as [|f l IH]; [split; [intros _ r [|j] k j' k' (g & Hg & _); discriminate|constructor]|].
  cbn [flat_map]. rewrite nodup_app_iff, IH. split.
  - intros (H1 & H2 & H3) r [|j] k [|j'] k' (g & Hg & Hk) (g' & Hg' & Hk'); cbn in Hg, Hg'.
    + injection Hg as <-. injection Hg' as <-. split; [reflexivity|]. rewrite NoDup_nth_error in H1. apply H1; [|congruence]. apply nth_error_Some. congruence.
    + exfalso. injection Hg as <-. apply (H3 r); [eapply nth_error_In; eauto|]. apply pos2_in. exists j', k', g'. auto.
    + exfalso. injection Hg' as <-. apply (H3 r); [eapply nth_error_In; eauto|]. apply pos2_in. exists j, k, g. auto.
    + destruct (H2 r j k j' k'); [exists g; auto|exists g'; auto|]. auto.
  - intros H. split; [|split].
    + rewrite NoDup_nth_error. intros k k' Hk E. destruct (nth_error (ir_res f) k) as [r|] eqn:Er; [|apply nth_error_None in Er; lia].
      apply (H r 0 k 0 k'); exists f; auto.
    + intros r j k j' k' (g & Hg) (g' & Hg'). destruct (H r (S j) k (S j') k'); [exists g; auto|exists g'; auto|]. split; congruence.
    + intros r Hr Hin. apply In_nth_error in Hr as (k & Hk). apply pos2_in in Hin as (j & k' & g & Hg). destruct (H r 0 k (S j) k') as [X _]; [exists f; auto|exists g; auto|discriminate].
Qed.

Lemma claims_pos infos : NoDup (all_claims infos) <-> forall r p q, claim_at infos p r -> claim_at infos q r -> p = q.
Proof.
  unfold all_claims. induction infos as [|c infos IH].
  - split; [intros _ r [[[|i] j] k] q (c & f & Hc & _); discriminate|constructor].
  - cbn [flat_map]. rewrite nodup_app_iff, IH, pos2_nodup. split.
    + intros (H1 & H2 & H3) r [[i j] k] [[i' j'] k'] (d & f & Hd & Hf & Hk) (d' & f' & Hd' & Hf' & Hk'). cbn in *.
      assert (In3 : forall i j k d f, nth_error infos i = Some d -> nth_error (ci_claims d) j = Some f -> nth_error (ir_res f) k = Some r ->
         In r (flat_map (fun c => flat_map ir_res (ci_claims c)) infos)).
      { intros a b e d0 f0 X1 X2 X3. apply in_flat_map. exists d0. split; [eapply nth_error_In; eauto|]. apply pos2_in. exists b, e, f0. auto. }
      destruct i as [|i], i' as [|i']; cbn in Hd, Hd'.
      * injection Hd as <-. injection Hd' as <-. destruct (H1 r j k j' k'); [exists f; auto|exists f'; auto|]. subst. reflexivity.
      * exfalso. injection Hd as <-. apply (H3 r); [apply pos2_in; exists j, k, f; auto|eauto].
      * exfalso. injection Hd' as <-. apply (H3 r); [apply pos2_in; exists j', k', f'; auto|eauto].
      * assert (X : (i, j, k) = (i', j', k')); [|congruence]. apply (H2 r); [exists d, f; auto|exists d', f'; auto].
    + intros H. split; [|split].
      * intros r j k j' k' (f & Hf) (f' & Hf'). assert (X : (0, j, k) = (0, j', k')); [|split; congruence]. apply (H r); [exists c, f|exists c, f']; auto; cbn; tauto.
      * intros r [[i j] k] [[i' j'] k'] (d & f & Hd) (d' & f' & Hd'). cbn in *. assert (X : (S i, j, k) = (S i', j', k')); [|congruence].
        apply (H r); [exists d, f|exists d', f']; auto.
      * intros r Hr Hin. apply pos2_in in Hr as (j & k & f & Hf). apply in_flat_map in Hin as (d & Hd & Hin). apply In_nth_error in Hd as (i & Hi).
        apply pos2_in in Hin as (j' & k' & f' & Hf'). assert (X : (0, j, k) = (S i, j', k')); [|discriminate]. apply (H r); [exists c, f|exists d, f']; cbn; tauto.
Qed.

Lemma conflict_exact infos : check_for_conflict infos = true <-> exists r p q, p <> q /\ claim_at infos p r /\ claim_at infos q r.
Proof.
  split.
  - intros H. assert (N : ~ NoDup (all_claims infos)) by (intros X; apply conflict_iff in X; congruence).
    (* constructively: search the duplicate *)
    assert (D : forall l : list string, ~ NoDup l -> exists i j r, i <> j /\ nth_error l i = Some r /\ nth_error l j = Some r).
    { clear. induction l as [|x l IH]; intros N; [exfalso; apply N; constructor|]. destruct (in_dec string_dec x l) as [Hx|Hx].
      - apply In_nth_error in Hx as (j & Hj). exists 0, (S j), x. auto.
      - destruct IH as (i & j & r & Hij & Hi & Hj); [intros X; apply N; constructor; auto|]. exists (S i), (S j), r. auto. }
    assert (Place : forall (l : list cinfo) i r, nth_error (all_claims l) i = Some r -> exists p, claim_at l p r).
    { intros l i r Hi. apply nth_error_In in Hi. unfold all_claims in Hi. apply in_flat_map in Hi as (c & Hc & Hi). apply In_nth_error in Hc as (a & Ha).
      apply pos2_in in Hi as (j & k & f & Hf). exists (a, j, k), c, f. cbn. tauto. }
    assert (Two : forall a b : list string, ~ NoDup (a ++ b) -> ~ NoDup a \/ ~ NoDup b \/ exists x, In x a /\ In x b).
    { clear. intros a b N. destruct (NoDup_dec string_dec a) as [Ha|Ha]; [|auto]. destruct (NoDup_dec string_dec b) as [Hb|Hb]; [|auto].
      right; right. destruct (existsb (fun x => if in_dec string_dec x b then true else false) a) eqn:E.
      - apply existsb_exists in E as (x & Hx & E). exists x. destruct (in_dec string_dec x b); [auto|discriminate].
      - exfalso. apply N, nodup_app_iff. repeat split; auto. intros x Hx Hb'. 
        assert (T : existsb (fun x => if in_dec string_dec x b then true else false) a = true); [|congruence].
        apply existsb_exists. exists x. split; [exact Hx|]. destruct (in_dec string_dec x b); [reflexivity|contradiction]. }
    clear H. induction infos as [|c infos IH]; [exfalso; apply N; constructor|]. unfold all_claims in N. cbn [flat_map] in N. apply Two in N.
    destruct N as [N|[N|N]].
    + assert (X : exists r j k j' k', (j, k) <> (j', k') /\ pos2 (ci_claims c) j k r /\ pos2 (ci_claims c) j' k' r).
      { clear - N D Two. induction (ci_claims c) as [|f l IH]; [exfalso; apply N; constructor|]. cbn [flat_map] in N. apply Two in N. destruct N as [N|[N|N]].
        - apply D in N as (i & j & r & Hij & Hi & Hj). exists r, 0, i, 0, j. split; [congruence|]. split; exists f; auto.
        - destruct (IH N) as (r & j & k & j' & k' & Hne & (f1 & X1) & (f2 & X2)). exists r, (S j), k, (S j'), k'. split; [congruence|]. split; [exists f1|exists f2]; auto.
        - destruct N as (r & H1 & H2). apply In_nth_error in H1 as (k & Hk). apply pos2_in in H2 as (j & k' & f2 & X2). exists r, 0, k, (S j), k'. split; [discriminate|]. split; [exists f|exists f2]; auto. }
      destruct X as (r & j & k & j' & k' & Hne & (f1 & X1) & (f2 & X2)). exists r, (0, j, k), (0, j', k'). split; [congruence|]. split; [exists c, f1|exists c, f2]; cbn; tauto.
    + destruct (IH N) as (r & [[i j] k] & [[i' j'] k'] & Hne & (c1 & f1 & X1) & (c2 & f2 & X2)). exists r, (S i, j, k), (S i', j', k'). split; [congruence|]. split; [exists c1, f1|exists c2, f2]; auto.
    + destruct N as (r & H1 & H2). apply pos2_in in H1 as (j & k & f1 & X1). apply in_flat_map in H2 as (c2 & H2 & H3). apply In_nth_error in H2 as (i & Hi).
      apply pos2_in in H3 as (j' & k' & f2 & X2). exists r, (0, j, k), (S i, j', k'). split; [discriminate|]. split; [exists c, f1|exists c2, f2]; cbn; tauto.
  - intros (r & p & q & Hne & Hp & Hq). destruct (check_for_conflict infos) eqn:E; [reflexivity|]. exfalso. apply conflict_iff in E.
    apply Hne. apply (proj1 (claims_pos infos) E r); auto.
Qed.

(** ** single interface controllers *)
Lemma lookup_provides kd T w m m' w' c : built kd w m -> tk_rm (kd T) = true -> get (kd T) T m w = (m', w', Some c) ->
  forall n, rm_get (ho_map (w_obj w' c)) n <> None <-> provides w m T n.
Proof.
  intros Hb Hk Hg n. destruct (lookup_rm _ _ _ _ _ _ _ Hb Hk Hg) as (_ & A & _). destruct (A c eq_refl) as (_ & B & _). rewrite B. apply first_rev.
Qed.

Lemma init_claims kd T others b1 b2 w m m' w' claims : built kd w m -> tk_rm (kd T) = true ->
  init_request (kd T) T others b1 b2 m w = (m', w', OutOk claims) ->
  exists hw res, (exists m1 w1, get (kd T) T m w = (m1, w1, Some hw)) /\ claims = [mkIface T res] /\ increasing res /\
    (forall n, In n res <-> provides w m T n /\
       ((tk_claiming (kd T) = true /\ calls_of b1 b2 None n) \/ exists j, others j = Some (hw, true) /\ calls_of b1 b2 (Some j) n)) /\
    ho_claims (w_obj w' hw) = [] /\ b_ret b1 = Some true /\ b_ret b2 = Some true.
Proof.
  intros Hb Hk Hi. destruct (get (kd T) T m w) as [[m1 w1] p] eqn:Eg. destruct (init_request_spec _ _ _ _ _ _ _ _ _ _ _ _ _ Eg Hi) as (-> & A & B).
  destruct p as [hw|]; [|destruct (A eq_refl) as [X _]; discriminate]. destruct (B hw eq_refl) as [_ C].
  destruct (C claims eq_refl) as (R1 & R2 & D & res & -> & E & F). exists hw, res. split; [eauto|]. split; [reflexivity|]. split; [exact E|]. split; [|auto].
  intros n. rewrite F, (lookup_provides _ _ _ _ _ _ _ Hb Hk Eg). tauto.
Qed.

Lemma init_missing kd T others b1 b2 w m m' w' r : built kd w m -> init_request (kd T) T others b1 b2 m w = (m', w', r) ->
  ~ exposed kd m T -> r = OutFalse /\ world_le w w'.
Proof.
  intros Hb Hi Hn. destruct (get (kd T) T m w) as [[m1 w1] p] eqn:Eg. destruct (init_request_spec _ _ _ _ _ _ _ _ _ _ _ _ _ Eg Hi) as (-> & A & B).
  destruct p as [hw|]; [exfalso; apply Hn, (exposed_iff _ _ _ _ _ _ _ Hb Eg); discriminate|]. destruct (A eq_refl) as [-> ->].
  split; [reflexivity|]. apply (get_frame _ _ _ _ _ _ _ Eg).
Qed.

(** Claims recorded before do not matter. *)
Lemma init_state_ok r : snd (init_request_state true r) = true <-> exists claims, fst (init_request_state true r) = OutOk claims.
Proof. destruct r; cbn; split; try discriminate; eauto; intros (? & ?); discriminate. Qed.

Lemma sfind_set_same {A} k (v : A) m : sfind k (sset k v m) = Some v.
Proof. now rewrite sfind_sset, String.eqb_refl. Qed.
Lemma sfind_set_other {A} k k' (v : A) m : k' <> k -> sfind k' (sset k v m) = sfind k' m.
Proof. intros H. rewrite sfind_sset. now apply String.eqb_neq in H as ->. Qed.

(** ** what registering does to the interfaces that a manager has *)
Lemma register_leaves k w m T i :
  exists m', register_interface k w m T (Some i) = Some m' /\
    (flat_get m T = None -> leaves T m' = i :: leaves T m) /\
    (forall j, flat_get m T = Some j -> exists l, leaves T m = j :: l /\ leaves T m' = i :: l) /\
    (forall T', T' <> T -> leaves T' m' = leaves T' m) /\ (forall T', has_type T' m' <-> T' = T \/ has_type T' m).
Proof.
  destruct m as [ifaces combo num res subs].
  assert (E : exists res', register_interface k w (Mgr ifaces combo num res subs) T (Some i) = Some (Mgr (sset T (Some i) ifaces) combo num res' subs)).
  { cbn. destruct (tk_rm k); eauto. }
  destruct E as [res' ->]. eexists. split; [reflexivity|]. cbn [leaves flat_get]. rewrite sfind_set_same. split; [|split; [|split]].
  - destruct (sfind T ifaces) as [[j|]|]; intros H; [discriminate H | reflexivity | reflexivity].
  - destruct (sfind T ifaces) as [[j|]|]; intros j0 H; try discriminate H. injection H as ->. cbn. eauto.
  - intros T' H. rewrite sfind_set_other; auto.
  - intros T'. split.
    + intros H. inversion H; subst.
      * destruct (string_dec T' T) as [->|Ne]; [now left|]. right. rewrite sfind_set_other in * by auto. eapply Own; eassumption.
      * right. eapply Sub; eassumption.
    + intros [->|H]; [eapply Own; apply sfind_set_same|]. inversion H; subst.
      * destruct (string_dec T' T) as [->|Ne]; [eapply Own; apply sfind_set_same|]. eapply Own. rewrite sfind_set_other by auto. eassumption.
      * eapply Sub; eassumption.
Qed.
Lemma sub_leaves m s T :
  leaves T (register_manager m s) = leaves T m ++ leaves T s /\ leaves T mgr_new = [] /\
  (has_type T (register_manager m s) <-> has_type T m \/ has_type T s) /\ ~ has_type T mgr_new.
Proof.
  destruct m as [ifaces combo num res subs]. cbn [register_manager leaves]. split; [rewrite flat_map_app; cbn; now rewrite app_nil_r, app_assoc|]. split; [reflexivity|]. split.
  - split.
    + intros H. inversion H; subst; [left; eapply Own; eassumption|].
      match goal with X : In _ (_ ++ _) |- _ => apply in_app_iff in X as [X|[->|[]]] end; [left; eapply Sub; eassumption | now right].
    + intros [H|H].
      * inversion H; subst; [eapply Own; eassumption|]. eapply Sub; [apply in_app_iff; left; eassumption | assumption].
      * eapply Sub; [apply in_app_iff; right; now left | assumption].
  - intros H. inversion H; subst; [discriminate | contradiction].
Qed.

Lemma multi_success kd optional Ts b1 b2 m w m' w' out r : multi_init kd optional Ts b1 b2 m w = (m', w', Some out, r) ->
  ((exists claims, r = OutOk claims) <->
   let locate T := match flat_get out T with Some i => Some (i, tk_claiming (kd T)) | None => None end in
   (b_ret b1 = Some true /\ calls_succeed locate w' b1) /\ (b_ret b2 = Some true /\ calls_succeed locate w' b2)).
Proof.
  unfold multi_init. intros H. destruct (if optional then (m, w, true) else has_interfaces kd Ts m w) as [[m1 w1] okk].
  destruct okk; [|discriminate H]. destruct (extract kd Ts m1 w1 mgr_new) as [[m2 w2] out2]. cbv zeta in *.
  set (w3 := clear_all Ts out2 w2) in *. set (locate := fun T => match flat_get out2 T with Some i => Some (i, tk_claiming (kd T)) | None => None end) in *.
  destruct (run_both locate b1 b2 w3) as [w4 v] eqn:E3. pose proof (run_both_true _ _ _ _ _ _ E3) as Tr. destruct (run_both_ok _ _ _ _ _ _ E3) as (M4 & _ & _).
  assert (Q : same_maps w4 w' /\ out2 = out /\ ((exists claims, r = OutOk claims) <-> v = Some true)).
  { destruct v as [[|]|]; injection H as <- <- <- <-; (split; [|split; [reflexivity|]]); try apply clear_all_spec; try apply same_maps_refl; split; try discriminate; try (intros [? X]; discriminate X); eauto. }
  destruct Q as (M5 & <- & ->). rewrite Tr. fold locate. rewrite <- !(fine_same locate w3 w') by (eapply same_maps_trans; eauto). reflexivity.
Qed.
Lemma multi_false kd optional Ts b1 b2 m w m' w' out r : multi_init kd optional Ts b1 b2 m w = (m', w', Some out, r) ->
  (r = OutFalse <->
   let locate T := match flat_get out T with Some i => Some (i, tk_claiming (kd T)) | None => None end in
   calls_succeed locate w' b1 /\ (b_ret b1 = Some false \/ b_ret b1 = Some true /\ b_ret b2 = Some false /\ calls_succeed locate w' b2)).
Proof.
  unfold multi_init. intros H. destruct (if optional then (m, w, true) else has_interfaces kd Ts m w) as [[m1 w1] okk].
  destruct okk; [|discriminate H]. destruct (extract kd Ts m1 w1 mgr_new) as [[m2 w2] out2]. cbv zeta in *.
  set (w3 := clear_all Ts out2 w2) in *. set (locate := fun T => match flat_get out2 T with Some i => Some (i, tk_claiming (kd T)) | None => None end) in *.
  destruct (run_both locate b1 b2 w3) as [w4 v] eqn:E3. pose proof (run_both_false _ _ _ _ _ _ E3) as Tr. destruct (run_both_ok _ _ _ _ _ _ E3) as (M4 & _ & _).
  assert (Q : same_maps w4 w' /\ out2 = out /\ (r = OutFalse <-> v = Some false)).
  { destruct v as [[|]|]; injection H as <- <- <- <-; (split; [|split; [reflexivity|]]); try apply clear_all_spec; try apply same_maps_refl; split; try discriminate; reflexivity. }
  destruct Q as (M5 & <- & ->). rewrite Tr. fold locate. rewrite <- !(fine_same locate w3 w') by (eapply same_maps_trans; eauto). reflexivity.
Qed.
