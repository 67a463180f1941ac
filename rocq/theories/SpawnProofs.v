(** Proofs about the threads of the spawner (SpawnModel.v). *)
From Coq Require Import Permutation Lia.
From Verif Require Import HwTypes Lifecycle ConflictModel CMModel CMSpec CMFinal ScriptModel ScriptSpec ScriptProofs ScriptMain SpawnModel.
Local Open Scope string_scope.
Local Open Scope list_scope.

Definition pending (m : main_pc) : list string :=
  match m with MLoop r => r | MReply n _ r => n :: r | _ => [] end.
Definition inflight (m : main_pc) : list string :=
  match m with MReply n true _ => [n] | _ => [] end.
Definition is_loading (m : main_pc) : Prop :=
  match m with MLoop _ | MReply _ _ _ => True | _ => False end.

Lemma fresh_app a b : fresh (a ++ b) = fresh a ++ fresh b.
Proof. apply map_app. Qed.

Section Threads.
  Variables (ls : list loader) (stopped : bool).
  Local Notation runs_to h p h' r := (executes alone ls h p h' (Some r)).

  Lemma threads_cons w sch s h h' s' : runs_to h (sp_threads stopped (w :: sch) s) h' s' ->
    exists h1 s1, runs_to h (if w then main_step stopped s else hook_step s) h1 s1 /\ runs_to h1 (sp_threads stopped sch s1) h' s'.
  Proof. intros E. cbn [sp_threads] in E. now apply bind_inv in E. Qed.

  (** What a step changes, whatever the environment does. *)
  Lemma main_step_frame s h h1 s1 : runs_to h (main_step stopped s) h1 s1 -> calm ls h -> sp_hook s1 = sp_hook s /\ sp_flag s1 = sp_flag s.
  Proof.
    unfold main_step. intros E C. destruct (sp_main s) as [[|n r]|n ok r| |].
    - apply ret_inv in E as (-> & _); auto.
    - apply load_inv in E as (h2 & b & C2 & _ & _ & _ & _ & E); [|exact C]. apply ret_inv in E as (-> & _); auto.
    - apply ret_inv in E as (-> & _); auto.
    - apply switch_inv in E as (h2 & b & C2 & _ & _ & _ & _ & E); [|exact C]. apply ret_inv in E as (-> & _); auto.
    - apply ret_inv in E as (-> & _); auto.
  Qed.
  Lemma hook_step_begun s h h1 s1 : runs_to h (hook_step s) h1 s1 -> calm ls h -> calm ls h1 /\ sp_hook s1 <> HWait.
  Proof.
    unfold hook_step. intros E C. destruct (sp_hook s) as [| |l| |[|n l]|] eqn:K.
    - apply ret_inv in E as (-> & C' & _); [|exact C]. split; [exact C' | discriminate].
    - apply ret_inv in E as (-> & C' & _); [|exact C]. split; [exact C' | discriminate].
    - apply switch_inv in E as (h2 & b & C2 & _ & _ & _ & _ & E); [|exact C]. apply ret_inv in E as (-> & C' & _); [|exact C2]. split; [exact C' | discriminate].
    - apply ret_inv in E as (-> & C' & _); [|exact C]. split; [exact C' | discriminate].
    - apply ret_inv in E as (-> & C' & _); [|exact C]. split; [exact C' | discriminate].
    - apply unload_inv in E as (h2 & b & C2 & _ & _ & E); [|exact C]. apply ret_inv in E as (-> & C' & _); [|exact C2]. split; [exact C' | discriminate].
    - apply ret_inv in E as (-> & C' & _); [|exact C]. split; [exact C' | congruence].
  Qed.

  (** ** Before the shutdown *)
  Definition before (h0 : list op) (names : list string) (s : sp_state) (h : list op) : Prop :=
    calm ls h /\ sp_flag s = false /\ sp_hook s = HWait /\
    (exists d, names = d ++ pending (sp_main s) /\ sublist (sp_loaded s) d) /\
    match sp_main s with
    | MSpin => exists ok, board ls h = board ls h0 ++ map (fun n => (n, if ok : bool then PStarted else PLoaded)) (sp_loaded s)
    | m => board ls h = board ls h0 ++ fresh (sp_loaded s ++ inflight m)
    end.

  Lemma sublist_snoc {A} (l d : list A) x : sublist l d -> sublist (l ++ [x]) (d ++ [x]).
  Proof. induction 1; cbn; [apply sub_keep; constructor | now apply sub_skip | now apply sub_keep]. Qed.
  Lemma sublist_skip_end {A} (l d : list A) x : sublist l d -> sublist l (d ++ [x]).
  Proof. induction 1; cbn; [apply sub_skip; constructor | now apply sub_skip | now apply sub_keep]. Qed.

  Lemma before_step h0 names s h h1 s1 : before h0 names s h -> runs_to h (main_step stopped s) h1 s1 -> before h0 names s1 h1.
  Proof.
    intros (C & F & K & (d & N & S) & B) E. pose proof (main_step_frame _ _ _ _ E C) as [K1 F1].
    unfold main_step in E. destruct (sp_main s) as [[|n r]|n ok r| |] eqn:M.
    - apply ret_inv in E as (E & C' & B'); [|exact C]. rewrite F in E. subst s1. cbn in *. unfold before. cbn.
      split; [exact C'|]. split; [reflexivity|]. split; [exact K|]. split; [exists d; destruct stopped; auto|].
      rewrite app_nil_r in B. destruct stopped; [exists false|]; rewrite B', B; [reflexivity | now rewrite app_nil_r].
    - apply load_inv in E as (h2 & b & C2 & B2 & _ & _ & _ & E); [|exact C]. apply ret_inv in E as (-> & C' & B'); [|exact C2]. cbn in *. unfold before. cbn.
      split; [exact C'|]. split; [exact F|]. split; [exact K|]. split; [eauto|].
      rewrite app_nil_r in B. rewrite B', B2, B, fresh_app, app_assoc. destruct b; reflexivity.
    - apply ret_inv in E as (-> & C' & B'); [|exact C]. cbn in *. unfold before. cbn.
      split; [exact C'|]. split; [exact F|]. split; [exact K|]. split.
      + exists (d ++ [n]). rewrite <- app_assoc. split; [exact N|]. destruct ok; [now apply sublist_snoc | now apply sublist_skip_end].
      + rewrite B', B, app_nil_r. destruct ok; [reflexivity | now rewrite app_nil_r].
    - apply switch_inv in E as (h2 & x & C2 & B2 & _ & _ & _ & E); [|exact C]. apply ret_inv in E as (-> & C' & B'); [|exact C2]. cbn in *. unfold before. cbn.
      split; [exact C'|]. split; [exact F|]. split; [exact K|]. split; [eauto|]. rewrite app_nil_r in B. exists x.
      destruct (fresh_app_nodup ls _ _ _ B) as [_ D]. rewrite B', B2, B. destruct x; [|reflexivity].
      rewrite switched_app. f_equal; [apply switched_other; intros n Hn; split; [intros H; exact (D n H Hn) | auto]|].
      rewrite switched_isin. unfold fresh. rewrite map_map. apply map_ext_in. intros n Hn. cbn. apply isin_spec in Hn. now rewrite Hn.
    - apply ret_inv in E as (-> & C' & B'); [|exact C]. unfold before. rewrite M, B'. eauto 9.
  Qed.

  Lemma begun_stays sch : forall s h h' s', runs_to h (sp_threads stopped sch s) h' s' -> calm ls h -> sp_hook s <> HWait -> sp_hook s' <> HWait.
  Proof.
    induction sch as [|w sch IH]; intros s h h' s' E C K.
    - apply ret_inv in E as (-> & _); auto.
    - apply threads_cons in E as (h1 & s1 & E1 & E2). destruct w.
      + destruct (main_step_frame _ _ _ _ E1 C) as [K1 _]. assert (C1 : calm ls h1).
        { unfold main_step in E1. destruct (sp_main s) as [[|n r]|n ok r| |].
          - apply ret_inv in E1 as (_ & C' & _); auto.
          - apply load_inv in E1 as (h2 & b & C2 & _ & _ & _ & _ & E1); [|exact C]. apply ret_inv in E1 as (_ & C' & _); auto.
          - apply ret_inv in E1 as (_ & C' & _); auto.
          - apply switch_inv in E1 as (h2 & b & C2 & _ & _ & _ & _ & E1); [|exact C]. apply ret_inv in E1 as (_ & C' & _); auto.
          - apply ret_inv in E1 as (_ & C' & _); auto. }
        apply (IH _ _ _ _ E2 C1). congruence.
      + destruct (hook_step_begun _ _ _ _ E1 C) as [C1 K1]. eapply IH; eauto.
  Qed.

  Lemma before_threads h0 names sch : forall s h h' s', before h0 names s h -> runs_to h (sp_threads stopped sch s) h' s' -> sp_hook s' = HWait -> before h0 names s' h'.
  Proof.
    induction sch as [|w sch IH]; intros s h h' s' A E K.
    - destruct A as (C & A). apply ret_inv in E as (-> & C' & B'); [|exact C]. unfold before in *. rewrite B'. auto.
    - apply threads_cons in E as (h1 & s1 & E1 & E2). destruct w.
      + apply (IH s1 h1); auto. eapply before_step; eauto.
      + exfalso. destruct A as (C & A). destruct (hook_step_begun _ _ _ _ E1 C) as [C1 K1]. exact (begun_stays _ _ _ _ _ E2 C1 K1 K).
  Qed.

  Lemma before_init h0 names : calm ls h0 -> before h0 names (sp_init names) h0.
  Proof. intros C. unfold before. cbn. split; [exact C|]. do 2 (split; [reflexivity|]). split; [exists []; split; [reflexivity | constructor]|]. now rewrite app_nil_r. Qed.

  (** ** Shutdown during loading *)
  Definition during (h0 : list op) (names l1 : list string) (s : sp_state) (h : list op) : Prop :=
    calm ls h /\ sp_flag s = true /\ (forall n, In n (sp_loaded s) -> ~ In n (ScriptSpec.names (board ls h0))) /\
    incl l1 (sp_loaded s) /\ incl (pending (sp_main s)) names /\ (forall n, In n l1 -> ~ In n (pending (sp_main s))) /\
    sp_main s <> MStart /\
    (forall n, In n (inflight (sp_main s)) -> ~ In n (ScriptSpec.names (board ls h0))) /\
    exists left, board ls h = board ls h0 ++ fresh left /\ incl left names /\
      match sp_hook s with
      | HWait => False
      | HAsk l => incl l (sp_loaded s)
      | HUnload todo => incl todo (sp_loaded s) /\ (forall n, In n l1 -> In n left -> In n todo)
      | HDone => forall n, In n l1 -> ~ In n left
      | _ => True
      end.

  Lemma not_started_in_fresh b l n p : In (n, p) (b ++ fresh l) -> ~ In n (ScriptSpec.names b) -> started p = false.
  Proof.
    intros H N. apply in_app_iff in H as [H|H]; [exfalso; apply N, in_names; eauto|]. unfold fresh in H. apply in_map_iff in H as (m & Em & _). now injection Em as <- <-.
  Qed.

  Lemma during_main h0 names l1 s h h1 s1 : during h0 names l1 s h -> runs_to h (main_step stopped s) h1 s1 -> during h0 names l1 s1 h1.
  Proof.
    intros (C & F & D & I & P & Q & M0 & G & left & B & L & K) E. pose proof (main_step_frame _ _ _ _ E C) as [K1 F1].
    unfold main_step in E. destruct (sp_main s) as [[|n r]|n ok r| |] eqn:M.
    - apply ret_inv in E as (E & C' & B'); [|exact C]. rewrite F in E. subst s1. cbn in *. unfold during. cbn.
      repeat (split; [solve [assumption | discriminate | reflexivity]|]). exists left. rewrite B'. auto.
    - apply load_inv in E as (h2 & b & C2 & B2 & N2 & _ & _ & E); [|exact C]. apply ret_inv in E as (-> & C' & B'); [|exact C2]. cbn in *. unfold during. cbn.
      repeat (split; [solve [assumption | discriminate | reflexivity]|]). split.
      { destruct b; [|intros m []]. intros m [<-|[]] Hm. apply (N2 eq_refl). rewrite B, names_app. apply in_app_iff. now left. }
      exists (left ++ if b then [n] else []). rewrite B', B2, B, fresh_app, <- app_assoc. split; [destruct b; reflexivity|]. split.
      { intros m Hm. apply in_app_iff in Hm as [Hm|Hm]; [auto|]. destruct b; [destruct Hm as [<-|[]]; apply P; now left | destruct Hm]. }
      destruct (sp_hook s); auto.
      + destruct K as [Ka Kb]. split; [exact Ka|]. intros m Hm Hl. apply in_app_iff in Hl as [Hl|Hl]; [auto|]. exfalso. apply (Q m Hm). destruct b; [destruct Hl as [<-|[]]; now left | destruct Hl].
      + intros m Hm Hl. apply in_app_iff in Hl as [Hl|Hl]; [exact (K m Hm Hl)|]. apply (Q m Hm). destruct b; [destruct Hl as [<-|[]]; now left | destruct Hl].
    - apply ret_inv in E as (-> & C' & B'); [|exact C]. cbn in *. unfold during. cbn.
      assert (Y : incl (sp_loaded s) (if ok then sp_loaded s ++ [n] else sp_loaded s)) by (destruct ok; [apply incl_appl|]; apply incl_refl).
      split; [exact C'|]. split; [exact F|]. split.
      { destruct ok; [|exact D]. intros m Hm. apply in_app_iff in Hm as [Hm|Hm]; [auto|]. destruct Hm as [<-|[]]. apply G. now left. }
      split; [eapply incl_tran; eauto|]. split; [intros m Hm; apply P; now right|]. split; [intros m Hm X; apply (Q m Hm); now right|].
      split; [discriminate|]. split; [intros m []|]. exists left. rewrite B'. split; [exact B|]. split; [exact L|].
      destruct (sp_hook s); auto; [eapply incl_tran; eauto|]. destruct K as [Ka Kb]. split; [eapply incl_tran; eauto | exact Kb].
    - now elim M0.
    - apply ret_inv in E as (-> & C' & B'); [|exact C]. unfold during. rewrite M. repeat (split; [solve [assumption]|]). exists left. rewrite B'. auto.
  Qed.

  Lemma during_hook h0 names l1 s h h1 s1 : during h0 names l1 s h -> runs_to h (hook_step s) h1 s1 -> during h0 names l1 s1 h1.
  Proof.
    intros (C & F & D & I & P & Q & M0 & G & left & B & L & K) E. unfold hook_step in E. destruct (sp_hook s) as [| |l| |[|n todo]|] eqn:H.
    - destruct K.
    - apply ret_inv in E as (-> & C' & B'); [|exact C]. unfold during. cbn. repeat (split; [solve [assumption]|]). exists left. rewrite B'. split; [exact B|]. split; [exact L|]. apply incl_refl.
    - apply switch_inv in E as (h2 & x & C2 & B2 & _ & _ & _ & E); [|exact C]. apply ret_inv in E as (-> & C' & B'); [|exact C2].
      assert (B3 : board ls h2 = board ls h).
      { rewrite B2. destruct x; [|reflexivity]. rewrite switched_isin. rewrite <- (map_id (board ls h)) at 2. apply map_ext_in. intros [m p] Hm. cbn.
        destruct (isin m l) eqn:Il; [|reflexivity]. apply isin_spec in Il. rewrite B in Hm. now rewrite (not_started_in_fresh _ _ _ _ Hm (D m (K m Il))). }
      unfold during. cbn. repeat (split; [solve [assumption]|]). exists left. rewrite B', B3. auto.
    - apply ret_inv in E as (-> & C' & B'); [|exact C]. unfold during. cbn. repeat (split; [solve [assumption]|]). exists left. rewrite B'. split; [exact B|]. split; [exact L|].
      split; [intros m Hm; now apply in_rev|]. intros m Hm _. apply in_rev. rewrite rev_involutive. now apply I.
    - apply ret_inv in E as (-> & C' & B'); [|exact C]. unfold during. cbn. repeat (split; [solve [assumption]|]). exists left. rewrite B'. split; [exact B|]. split; [exact L|].
      intros m Hm Hl. exact (proj2 K m Hm Hl).
    - apply unload_inv in E as (h2 & x & C2 & B2 & _ & E); [|exact C]. apply ret_inv in E as (-> & C' & B'); [|exact C2]. destruct K as [Ka Kb].
      unfold during. cbn. repeat (split; [solve [assumption]|]). exists (filter (fun m => negb (String.eqb m n)) left). split; [|split; [|split]].
      + rewrite B', B2, B, filter_app. f_equal.
        * apply filter_all. intros [m p] Hm. cbn. apply orb_true_iff. left. apply negb_true_iff. apply String.eqb_neq. intros ->.
          apply (D n); [apply Ka; now left | apply in_names; eauto].
        * clear. unfold fresh. induction left as [|m l IH]; [reflexivity|]. cbn. rewrite orb_false_r. destruct (negb (m =? n)); cbn; now rewrite IH.
      + intros m Hm. apply filter_In in Hm as [Hm _]. auto.
      + intros m Hm. apply Ka. now right.
      + intros m Hm Hl. apply filter_In in Hl as [Hl Hn]. apply negb_true_iff, String.eqb_neq in Hn. destruct (Kb m Hm Hl) as [<-|Y]; [congruence | exact Y].
    - apply ret_inv in E as (-> & C' & B'); [|exact C]. unfold during. rewrite H, B'. repeat (split; [solve [assumption]|]). exists left. auto.
  Qed.

  Lemma during_threads h0 names l1 sch : forall s h h' s', during h0 names l1 s h -> runs_to h (sp_threads stopped sch s) h' s' -> during h0 names l1 s' h'.
  Proof.
    induction sch as [|w sch IH]; intros s h h' s' A E.
    - destruct A as (C & A). apply ret_inv in E as (-> & C' & B'); [|exact C]. unfold during in *. rewrite B'. auto.
    - apply threads_cons in E as (h1 & s1 & E1 & E2). eapply IH; [|exact E2]. destruct w; [eapply during_main | eapply during_hook]; eauto.
  Qed.

  Lemma during_begin h0 names s h h1 s1 : NoDup names -> before h0 names s h -> is_loading (sp_main s) -> runs_to h (hook_step s) h1 s1 ->
    during h0 names (sp_loaded s) s1 h1.
  Proof.
    intros ND (C & F & K & (d & N & S) & B) Lo E. unfold hook_step in E. rewrite K in E. apply ret_inv in E as (-> & C' & B'); [|exact C].
    assert (B1 : board ls h = board ls h0 ++ fresh (sp_loaded s ++ inflight (sp_main s))) by (destruct (sp_main s); auto; destruct Lo).
    destruct (fresh_app_nodup ls _ _ _ B1) as [_ D].
    unfold during. cbn. split; [exact C'|]. split; [reflexivity|]. split; [intros n Hn; apply D, in_app_iff; now left|]. split; [apply incl_refl|].
    split; [rewrite N; intros n Hn; apply in_app_iff; now right|]. split.
    { intros n Hn Hp. rewrite N in ND. apply sublist_in with (1 := S) in Hn. apply in_split in Hn as (d1 & d2 & ->). rewrite <- app_assoc in ND. cbn in ND.
      apply NoDup_remove_2 in ND. apply ND. rewrite !in_app_iff. tauto. }
    split; [intros X; rewrite X in Lo; exact Lo|]. split; [intros n Hn; apply D, in_app_iff; now right|].
    eexists. rewrite B'. split; [exact B1|]. split; [|exact I]. intros n Hn. rewrite N. apply in_app_iff. apply in_app_iff in Hn as [Hn|Hn]; [left; eapply sublist_in; eauto | right].
    destruct (sp_main s) as [|m [|] r| |]; cbn in *; intuition.
  Qed.

  (** ** Shutdown after starting *)
  Definition after (h0 h1 : list op) (l : list string) (s : sp_state) (h : list op) : Prop :=
    calm ls h /\ sp_main s = MSpin /\ sp_loaded s = l /\ (exists t, h = h1 ++ t) /\
    match sp_hook s with
    | HWait => False
    | HStop => board ls h = board ls h1
    | HAsk l' => l' = l /\ board ls h = board ls h1
    | k => exists (x : bool) (todo done : list string), rev l = done ++ todo /\ match k with HRead => todo = rev l | HUnload t => todo = t | _ => todo = [] end /\
        board ls h = filter (fun y => negb (isin (fst y) done) || started (snd y)) (if x then switched [] l (board ls h1) else board ls h1) /\
        (x = true -> forall n, In n l -> running (board ls h1) n) /\
        (x = false -> (forall n, In n l -> running (board ls h1) n) -> objection ls h1 h [] l)
    end.

  Lemma after_hook h0 h1 l s h h' s' : after h0 h1 l s h -> runs_to h (hook_step s) h' s' -> after h0 h1 l s' h'.
  Proof.
    intros (C & M & Ll & T & K) E. assert (T2 : exists t, h' = h1 ++ t).
    { pose proof (executes_app ls _ _ _ _ _ E) as [t ->]. destruct T as [t' ->]. exists (t' ++ t). now rewrite app_assoc. }
    assert (Y : forall a b, objection ls h1 h a b -> objection ls h1 h' a b).
    { intros a b. apply objection_earlier; [exact T | exact (executes_app ls _ _ _ _ _ E)]. }
    unfold hook_step in E. destruct (sp_hook s) as [| |l0| |[|n t0]|] eqn:H.
    - destruct K.
    - apply ret_inv in E as (-> & C' & B'); [|exact C]. unfold after. cbn. repeat (split; [assumption|]). now rewrite B', K.
    - apply switch_inv in E as (h2 & x & C2 & B2 & F2 & O2 & P2 & E); [|exact C]. pose proof (executes_app ls _ _ _ _ _ E) as P3.
      apply ret_inv in E as (-> & C' & B'); [|exact C2]. destruct K as [-> K]. unfold after. cbn. repeat (split; [assumption|]).
      exists x, (rev l), []. split; [reflexivity|]. split; [reflexivity|]. split; [|split].
      + rewrite B', B2, K. symmetry. apply filter_all. auto.
      + intros -> n Hn. rewrite <- K. exact (proj2 (F2 eq_refl eq_refl) n Hn).
      + intros -> R. apply (objection_later ls _ _ h1 h h'); [exact T | destruct P2 as [t ->], P3 as [t' ->]; exists (t ++ t'); now rewrite app_assoc|].
        apply (objection_earlier ls _ _ h h2 h'); auto. apply (O2 eq_refl). left. split; [reflexivity|]. split; [intros n [] | rewrite K; exact R].
    - apply ret_inv in E as (-> & C' & B'); [|exact C]. destruct K as (x & todo & dn & K1 & K2 & K3 & K4 & K5). unfold after. cbn. repeat (split; [assumption|]).
      exists x, todo, dn. rewrite Ll, B'. auto 8.
    - apply ret_inv in E as (-> & C' & B'); [|exact C]. destruct K as (x & todo & dn & K1 & K2 & K3 & K4 & K5). unfold after. cbn. repeat (split; [assumption|]).
      exists x, todo, dn. rewrite B'. auto 8.
    - apply unload_inv in E as (h2 & b & C2 & B2 & _ & E); [|exact C]. apply ret_inv in E as (-> & C' & B'); [|exact C2].
      destruct K as (x & todo & dn & K1 & -> & K3 & K4 & K5). unfold after. cbn. repeat (split; [assumption|]).
      exists x, t0, (dn ++ [n]). rewrite <- app_assoc. split; [exact K1|]. split; [reflexivity|]. split; [|split; [exact K4 | auto]].
      rewrite B', B2, K3, filter_filter. apply filter_ext. intros [m p]. cbn [fst snd]. unfold isin. rewrite existsb_app. cbn.
      destruct (existsb (String.eqb m) dn), (m =? n)%string, (started p); reflexivity.
    - apply ret_inv in E as (-> & C' & B'); [|exact C]. unfold after. rewrite H. repeat (split; [assumption|]).
      destruct K as (x & todo & dn & K1 & K2 & K3 & K4 & K5). exists x, todo, dn. rewrite B'. auto 8.
  Qed.

  Lemma after_threads h0 h1 l sch : forall s h h' s', after h0 h1 l s h -> runs_to h (sp_threads stopped sch s) h' s' -> after h0 h1 l s' h'.
  Proof.
    induction sch as [|w sch IH]; intros s h h' s' A E.
    - pose proof (executes_app ls _ _ _ _ _ E) as P. destruct A as (C & M & Ll & T & K). apply ret_inv in E as (-> & C' & B'); [|exact C].
      unfold after. split; [exact C'|]. do 2 (split; [assumption|]). split; [destruct P as [t ->], T as [t' ->]; exists (t' ++ t); now rewrite app_assoc|].
      rewrite B'. destruct (sp_hook s); auto; destruct K as (x & todo & dn & K1 & K2 & K3 & K4 & K5); exists x, todo, dn; do 4 (split; [assumption|]);
        intros X Y; (apply (objection_earlier ls _ _ h1 h h'); auto).
    - apply threads_cons in E as (h2 & s1 & E1 & E2). eapply IH; [|exact E2]. destruct w; [|eapply after_hook; eauto].
      pose proof (executes_app ls _ _ _ _ _ E1) as P. destruct A as (C & M & Ll & T & K). unfold main_step in E1. rewrite M in E1. apply ret_inv in E1 as (-> & C' & B'); [|exact C].
      unfold after. split; [exact C'|]. do 2 (split; [assumption|]). split; [destruct P as [t ->], T as [t' ->]; exists (t' ++ t); now rewrite app_assoc|].
      rewrite B'. destruct (sp_hook s); auto; destruct K as (x & todo & dn & K1 & K2 & K3 & K4 & K5); exists x, todo, dn; do 4 (split; [assumption|]);
        intros X Y; (apply (objection_earlier ls _ _ h1 h h2); auto).
  Qed.
End Threads.

(** ** The same requests in the same order *)
Inductive same_requests {R S} (rel : R -> S -> Prop) : script R -> script S -> Prop :=
| same_ret r s : rel r s -> same_requests rel (Ret r) (Ret s)
| same_load n k k' : (forall b, same_requests rel (k b) (k' b)) -> same_requests rel (CLoad n k) (CLoad n k')
| same_switch a b z k k' : (forall x, same_requests rel (k x) (k' x)) -> same_requests rel (CSwitch a b z k) (CSwitch a b z k').

Lemma same_executes {R S} (rel : R -> S -> Prop) W ls h p h' r : executes W ls h p h' (Some r) -> forall q, same_requests rel p q ->
  exists s, executes W ls h q h' (Some s) /\ rel r s.
Proof.
  intros E. remember (Some r) as o. revert Heqo.
  induction E as [h o' p h' ro HW E IH | h y | h p | h n env k b h' ro Hi Hr E IH | h n k b h' ro Hi Hr E IH | h k l h' ro Hi Hr E IH
      | h a b z now ck pr k h' ro Hi Hr E IH | h a b z now ck pr mid w ok1 ok2 y k h' ro Hi Hr HW HP Hs Hr2 E IH | h a b z now ck pr mid k Hi Hr HW
      | h fo now ck pr b k h' ro Hi Hr E IH | h fo now ck pr mid w ok1 ok2 y k h' ro Hi Hr HW HP Hs Hr2 E IH | h fo now ck pr mid k Hi Hr HW];
    intros Eo q Q; try discriminate Eo.
  - destruct (IH Eo q Q) as (s & E' & X). exists s. split; [eapply ex_env; eauto | exact X].
  - injection Eo as ->. inversion Q; subst. eexists. split; [constructor | eassumption].
  - inversion Q; subst. edestruct IH as (s & E' & X); [reflexivity | eauto|]. exists s. split; [eapply ex_load; eauto | exact X].
  - inversion Q.
  - inversion Q.
  - inversion Q; subst. edestruct IH as (s & E' & X); [reflexivity | eauto|]. exists s. split; [eapply ex_switch_refused; eauto | exact X].
  - inversion Q; subst. edestruct IH as (s & E' & X); [reflexivity | eauto|]. exists s. split; [eapply ex_switch; eauto | exact X].
  - inversion Q.
  - inversion Q.
Qed.

Definition finished_as (s : sp_state) (r : list string * bool) : Prop := s = mkSp (fst r) false MSpin HWait.

Lemma spin_same stopped k l r : finished_as (mkSp l false MSpin HWait) r -> same_requests finished_as (sp_threads stopped (repeat true k) (mkSp l false MSpin HWait)) (Ret r).
Proof. intros H. induction k; [now constructor | exact IHk]. Qed.

Lemma main_same stopped k names : forall l,
  same_requests finished_as (sp_threads stopped (repeat true (2 * length names + 2 + k)) (mkSp l false (MLoop names) HWait))
    (bind (spawner_load names l) (fun loaded => if stopped then Ret (loaded, false) else CSwitch loaded [] STRICT (fun ok => Ret (loaded, ok)))).
Proof.
  induction names as [|n names IH]; intros l.
  - cbn. destruct stopped; cbn; [apply (spin_same true (S k)); reflexivity | constructor; intros x; apply (spin_same false k); reflexivity].
  - replace (2 * length (n :: names) + 2 + k)%nat with (S (S (2 * length names + 2 + k))) by (cbn; lia).
    cbn [repeat sp_threads main_step sp_main sp_loaded sp_flag sp_hook bind spawner_load]. constructor. intros b. apply IH.
Qed.
