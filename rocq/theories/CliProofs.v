(** Proofs about the tool `controller_manager`. *)
From Coq Require Import Permutation Lia.
From Verif Require Import HwTypes Lifecycle CMModel CMSpec CMLoad CMFinal ScriptModel ScriptSpec ScriptProofs ScriptMain CliModel CliSpec.
Local Open Scope list_scope.

Section Cli.
  Variables (ls : list loader).
  Local Notation runs_to h p h' r := (executes alone ls h p h' (Some r)).

  Lemma bind_exec W {R S} h (p : script R) h1 x : executes W ls h p h1 (Some x) -> forall (f : R -> script S) h' r,
    executes W ls h1 (f x) h' r -> executes W ls h (bind p f) h' r.
  Proof.
    intros E. remember (Some x) as o. revert Heqo.
    induction E; intros Eo f hh rr X; try discriminate Eo; cbn [bind].
    - eapply ex_env; eauto.
    - injection Eo as ->. exact X.
    - eapply ex_load; eauto.
    - eapply ex_unload; eauto.
    - eapply ex_list; eauto.
    - eapply ex_switch_refused; eauto.
    - eapply ex_switch; eauto.
    - eapply ex_reload_now; eauto.
    - eapply ex_reload; eauto.
  Qed.
  Lemma ret_then W {R S} h (x : R) h1 y : executes W ls h (Ret x) h1 (Some y) -> y = x /\ forall (p : script S) h' r, executes W ls h1 p h' r -> executes W ls h p h' r.
  Proof.
    intros E. remember (Ret x) as q. remember (Some y) as o. revert Heqq Heqo. induction E; intros Eq Eo; try discriminate Eq; try discriminate Eo.
    - destruct (IHE Eq Eo) as [-> K]. split; [reflexivity|]. intros q' hh rr X. eapply ex_env; eauto.
    - injection Eq as ->. injection Eo as ->. auto.
  Qed.

  (** A loop that prints does what the loop without printing does. *)
  Lemma each_prints (f : string -> script bool) (g : string -> bool -> list said) ns : forall h h' out,
    runs_to h (each (fun n => bind (f n) (fun ok => Ret (g n ok))) ns) h' out ->
    exists oks, length oks = length ns /\ out = map (fun x => g (fst x) (snd x)) (combine ns oks) /\ runs_to h (each f ns) h' oks.
  Proof.
    induction ns as [|n ns IH]; intros h h' out E; cbn [each] in *.
    - destruct (ret_then alone (S := list bool) _ _ _ _ E) as [-> K]. exists []. split; [reflexivity|]. split; [reflexivity|]. apply K. constructor.
    - apply bind_inv in E as (h1 & r & E1 & E2). apply bind_inv in E1 as (h0 & ok & E0 & E1).
      apply bind_inv in E2 as (h2 & rs & E2 & E3). destruct (IH _ _ _ E2) as (oks & L & -> & X).
      destruct (ret_then alone (S := list bool) _ _ _ _ E1) as [-> K1]. destruct (ret_then alone (S := list bool) _ _ _ _ E3) as [-> K3].
      exists (ok :: oks). split; [cbn; lia|]. split; [reflexivity|].
      eapply bind_exec; [exact E0|]. apply K1. eapply bind_exec; [exact X|]. apply K3. constructor.
  Qed.

  Lemma taken_in ns : forall oks n, In n (taken ns oks) <-> In (n, true) (combine ns oks).
  Proof.
    intros oks n. unfold taken. rewrite in_map_iff. split.
    - intros ([m b] & <- & H). apply filter_In in H as [H S]. cbn in *. now subst b.
    - intros H. exists (n, true). split; [reflexivity|]. apply filter_In. auto.
  Qed.

  Lemma lines_each (g : string -> bool -> list said) good bad ns : (forall n b, g n b = [if b then good n else bad n]) ->
    forall oks, length oks = length ns -> one_line_each good bad ns (List.concat (map (fun x => g (fst x) (snd x)) (combine ns oks))).
  Proof.
    intros G. unfold one_line_each. induction ns as [|n ns IH]; intros [|b oks] L; try discriminate L; cbn [combine map List.concat app]; [constructor|].
    cbn [fst snd]. rewrite G. cbn [app]. constructor; [destruct b; auto|]. apply IH. now injection L.
  Qed.
  Lemma lines_good (g : string -> bool -> list said) good bad ns : (forall n b, g n b = [if b then good n else bad n]) ->
    (forall n m, good n = good m -> n = m) -> (forall n m, bad n <> good m) ->
    forall oks n, In n (taken ns oks) <-> In (good n) (List.concat (map (fun x => g (fst x) (snd x)) (combine ns oks))).
  Proof.
    intros G I D oks n. rewrite taken_in, in_concat. split.
    - intros H. exists [good n]. split; [|now left]. apply in_map_iff. exists (n, true). cbn. rewrite G. auto.
    - intros (l & H & K). apply in_map_iff in H as ([m b] & <- & H). cbn [fst snd] in K. rewrite G in K. destruct K as [K|[]].
      destruct b; [apply I in K; now subst m | now apply D in K].
  Qed.

  Lemma loop_runs (f : string -> script bool) (g : string -> bool -> list said) p ns h h' out :
    (forall n, p n = bind (f n) (fun ok => Ret (g n ok))) -> runs_to h (loop p ns) h' out ->
    exists h1 oks, length oks = length ns /\ out = List.concat (map (fun x => g (fst x) (snd x)) (combine ns oks)) /\ runs_to h (each f ns) h1 oks /\
      runs_to h1 (Ret oks) h' oks.
  Proof.
    intros P E. unfold loop in E. apply bind_inv in E as (h1 & o & E1 & E2).
    assert (Q : each p ns = each (fun n => bind (f n) (fun ok => Ret (g n ok))) ns).
    { clear -P. induction ns as [|n ns IH]; [reflexivity|]. cbn [each]. now rewrite P, IH. }
    rewrite Q in E1. destruct (each_prints _ _ _ _ _ _ E1) as (oks & L & -> & X).
    destruct (ret_then alone (S := list bool) _ _ _ _ E2) as [-> K]. exists h1, oks. repeat split; auto. apply K. constructor.
  Qed.

  (** *** More about the calls *)
  Lemma unload_inv_reply {R} h n (k : bool -> script R) h' r : runs_to h (CUnload n k) h' r -> calm ls h ->
    exists h1 (b : bool), calm ls h1 /\ board ls h1 = filter (fun x => negb (String.eqb (fst x) n) || started (snd x)) (board ls h) /\
      (b = true <-> In n (names (board ls h)) /\ ~ running (board ls h) n) /\ runs_to h1 (k b) h' r.
  Proof.
    intros E. remember (CUnload n k) as q. remember (Some r) as o. revert Heqq Heqo.
    induction E as [h o' q h' ro HW E IH | h y | h q | h n' env k' bb h' ro Hi Hr E IH | h n' k' bb h' ro Hi Hr E IH | h k' l h' ro Hi Hr E IH
      | h a' b' z' now ck pr k' h' ro Hi Hr E IH | h a' b' z' now ck pr mid w ok1 ok2 y k' h' ro Hi Hr HW HP Hs Hr2 E IH | h a' b' z' now ck pr mid k' Hi Hr HW
      | h fo now ck pr bb k' h' ro Hi Hr E IH | h fo now ck pr mid w ok1 ok2 y k' h' ro Hi Hr HW HP Hs Hr2 E IH | h fo now ck pr mid k' Hi Hr HW];
      intros Eq Eo C; try discriminate Eq; try discriminate Eo.
    - destruct (env_call ls h o' C HW) as [C1 B1]. destruct (IH Eq Eo C1) as (h1 & b & H1). rewrite B1 in H1. eauto.
    - injection Eq as -> ->. subst ro. destruct (unload_call_board ls h n bb C Hr) as (C1 & T & F & B1). exists (h ++ [Unload n]), bb.
      split; [exact C1|]. split; [exact B1|]. split; [|exact E]. split.
      + intros ->. destruct (T eq_refl) as (p & Hp & Np). split; [apply in_names; eauto|]. intros X. apply Np. eapply running_phase; [apply (board_names ls h) | exact X | exact Hp].
      + intros [X Y]. destruct bb; [reflexivity|]. destruct (F eq_refl); contradiction.
  Qed.
  Lemma list_inv_report {R} h (k : list lc_entry -> script R) h' r : runs_to h (CList k) h' r -> calm ls h ->
    exists h0 h1, board ls h0 = board ls h /\ board ls h1 = board ls h /\ calm ls h1 /\ (exists t, h0 = h ++ t /\ Forall alone t) /\ runs_to h1 (k (report (trace ls h0))) h' r.
  Proof.
    intros E. remember (CList k) as q. remember (Some r) as o. revert Heqq Heqo.
    induction E as [h o' q h' ro HW E IH | h y | h q | h n' env k' bb h' ro Hi Hr E IH | h n' k' bb h' ro Hi Hr E IH | h k' l h' ro Hi Hr E IH
      | h a' b' z' now ck pr k' h' ro Hi Hr E IH | h a' b' z' now ck pr mid w ok1 ok2 y k' h' ro Hi Hr HW HP Hs Hr2 E IH | h a' b' z' now ck pr mid k' Hi Hr HW
      | h fo now ck pr bb k' h' ro Hi Hr E IH | h fo now ck pr mid w ok1 ok2 y k' h' ro Hi Hr HW HP Hs Hr2 E IH | h fo now ck pr mid k' Hi Hr HW];
      intros Eq Eo C; try discriminate Eq; try discriminate Eo.
    - destruct (env_call ls h o' C HW) as [C1 B1]. destruct (IH Eq Eo C1) as (h0 & h1 & H0 & H1 & H2 & (t & -> & Ht) & H3). rewrite B1 in *. 
      exists ((h ++ [o']) ++ t), h1. repeat (split; [assumption|]). split; [|exact H3]. exists (o' :: t). split; [now rewrite <- app_assoc | now constructor].
    - injection Eq as ->. subst ro. destruct (list_call ls h l C Hr) as (C1 & B1 & L1). exists h, (h ++ [ListControllers]).
      rewrite (list_reply ls h (proj2 C)) in Hr. injection Hr as <-. repeat (split; [solve [auto]|]). split; [|exact E]. exists []. now rewrite app_nil_r.
  Qed.

  Lemma each_unload_reply h ns h' oks : runs_to h (each unload_controller ns) h' oks -> calm ls h ->
    length oks = length ns /\ forall n, In n (taken ns oks) <-> In n ns /\ In n (names (board ls h)) /\ ~ running (board ls h) n.
  Proof.
    revert h h' oks. induction ns as [|n ns IH]; intros h h' oks E C; cbn [each] in E.
    - apply ret_inv in E as (-> & C' & B'); auto. split; [reflexivity|]. intros n. cbn. tauto.
    - cbn [bind unload_controller] in E. apply unload_inv_reply in E as (h1 & b & C1 & B1 & Hb & E); [|exact C]. cbn [bind] in E.
      apply bind_inv in E as (h2 & bs & E1 & E2). destruct (IH _ _ _ E1 C1) as (L2 & T2).
      apply ret_inv in E2 as (-> & _ & _); [|now apply each_unload in E1 as [X _]]. split; [cbn; lia|].
      assert (S : forall m, m <> n -> (In m (names (board ls h1)) <-> In m (names (board ls h))) /\ (running (board ls h1) m <-> running (board ls h) m)).
      { intros m Hm. rewrite B1. apply String.eqb_neq in Hm. split.
        - rewrite !in_names. split; intros [p Hp]; exists p; [now apply filter_In in Hp|]. apply filter_In. cbn. rewrite Hm. auto.
        - unfold running. rewrite filter_In. cbn. rewrite Hm. cbn. tauto. }
      assert (N : ~ (In n (names (board ls h1)) /\ ~ running (board ls h1) n)).
      { intros [X Y]. apply in_names in X as [p Hp]. apply Y. unfold running. rewrite B1 in *. apply filter_In in Hp as Hq. destruct Hq as [_ Hq].
        cbn in Hq. rewrite String.eqb_refl in Hq. cbn in Hq. apply started_spec in Hq. now subst p. }
      intros m. rewrite taken_cons. destruct (string_dec m n) as [->|Hne].
      + split.
        * intros X. split; [now left|]. destruct b; [now apply Hb|]. apply T2 in X. tauto.
        * intros [_ X]. apply Hb in X. subst b. now left.
      + destruct (S m Hne) as [S1 S2]. pose proof (T2 m) as T. rewrite S1, S2 in T. destruct b; cbn [In]; rewrite T; split; intuition congruence.
  Qed.
  Lemma each_start_fits h ns h' oks : runs_to h (each start_controller ns) h' oks -> calm ls h ->
    forall n, In n (taken ns oks) -> In n (names (board ls h)) /\ ~ running (board ls h) n.
  Proof.
    revert h h' oks. induction ns as [|n ns IH]; intros h h' oks E C; cbn [each] in E.
    - apply ret_inv in E as (-> & C' & B'); auto. intros n [].
    - cbn [bind start_controller start_stop_controllers] in E. apply switch_inv in E as (h1 & b & C1 & B1 & F1 & O1 & P1 & E); [|exact C]. cbn [bind] in E.
      apply bind_inv in E as (h2 & bs & E1 & E2). pose proof (IH _ _ _ E1 C1) as T2. destruct (each_start ls _ _ _ _ E1 C1) as (C2 & _).
      apply ret_inv in E2 as (-> & _ & _); [|exact C2]. intros m. rewrite taken_cons. intros H.
      assert (K : In m (taken ns bs) -> In m (names (board ls h)) /\ ~ running (board ls h) m).
      { intros X. apply T2 in X as [X Y]. rewrite B1 in X, Y. destruct b; [|auto]. rewrite names_switched in X. split; [exact X|]. intros Z.
        apply Y. rewrite running_switched by apply board_names. right. split; [exact Z | intros []]. }
      destruct b; [|auto]. destruct H as [<-|H]; [|auto]. destruct (F1 eq_refl eq_refl) as [F _]. apply F. now left.
  Qed.
  Lemma each_stop_fits h ns h' oks : runs_to h (each stop_controller ns) h' oks -> calm ls h ->
    forall n, In n (taken ns oks) -> running (board ls h) n.
  Proof.
    revert h h' oks. induction ns as [|n ns IH]; intros h h' oks E C; cbn [each] in E.
    - apply ret_inv in E as (-> & C' & B'); auto. intros n [].
    - cbn [bind stop_controller start_stop_controllers] in E. apply switch_inv in E as (h1 & b & C1 & B1 & F1 & O1 & P1 & E); [|exact C]. cbn [bind] in E.
      apply bind_inv in E as (h2 & bs & E1 & E2). pose proof (IH _ _ _ E1 C1) as T2. destruct (each_stop ls _ _ _ _ E1 C1) as (C2 & _).
      apply ret_inv in E2 as (-> & _ & _); [|exact C2]. intros m. rewrite taken_cons. intros H.
      assert (K : In m (taken ns bs) -> running (board ls h) m).
      { intros X. apply T2 in X. rewrite B1 in X. destruct b; [|auto]. rewrite running_switched in X by apply board_names. destruct X as [[_ []]|[X _]]. exact X. }
      destruct b; [|auto]. destruct H as [<-|H]; [|auto]. destruct (F1 eq_refl eq_refl) as [_ F]. apply F. now left.
  Qed.

  (** *** The loops *)
  Lemma cli_load ns h h' out : runs_to h (loop say_load ns) h' out -> calm ls h ->
    calm ls h' /\ one_line_each Loaded LoadError ns out /\ exists l, sublist l ns /\ (forall n, In n l <-> In (Loaded n) out) /\
    board ls h' = board ls h ++ fresh l /\ (forall n, In n ns -> In n (names (board ls h')) \/ load_refused ls h h' n).
  Proof.
    intros E C. destruct (loop_runs load_controller (fun n ok => [if ok then Loaded n else LoadError n]) _ _ _ _ _ (fun n => eq_refl) E) as (h1 & oks & L & -> & X & Y).
    destruct (each_load ls _ _ _ _ X C) as (C1 & _ & B & R). pose proof (executes_app ls _ _ _ _ _ Y) as P. apply ret_inv in Y as (_ & C' & B'); [|exact C1].
    split; [exact C'|]. split; [now apply (lines_each (fun n (ok : bool) => [if ok then Loaded n else LoadError n]))|]. exists (taken ns oks). split; [apply taken_sublist|]. split.
    { intros n. apply (lines_good (fun n (ok : bool) => [if ok then Loaded n else LoadError n]) Loaded LoadError); [reflexivity | intros; congruence | discriminate]. }
    split; [congruence|]. intros n Hn. rewrite B'. destruct (R n Hn) as [K|K]; [now left|right]. eapply load_refused_earlier; [exact P | exact K].
  Qed.
  Lemma cli_unload ns h h' out : runs_to h (loop say_unload ns) h' out -> calm ls h ->
    calm ls h' /\ one_line_each Unloaded UnloadError ns out /\
    board ls h' = filter (fun x => negb (isin (fst x) ns) || started (snd x)) (board ls h) /\
    (forall n, In (Unloaded n) out <-> In n ns /\ In n (names (board ls h)) /\ ~ running (board ls h) n).
  Proof.
    intros E C. destruct (loop_runs unload_controller (fun n ok => [if ok then Unloaded n else UnloadError n]) _ _ _ _ _ (fun n => eq_refl) E) as (h1 & oks & L & -> & X & Y).
    destruct (each_unload ls _ _ _ _ X C) as (C1 & B). destruct (each_unload_reply _ _ _ _ X C) as (_ & T). apply ret_inv in Y as (_ & C' & B'); [|exact C1].
    split; [exact C'|]. split; [now apply (lines_each (fun n (ok : bool) => [if ok then Unloaded n else UnloadError n]))|]. split; [congruence|]. intros n. rewrite <- T. symmetry.
    apply (lines_good (fun n (ok : bool) => [if ok then Unloaded n else UnloadError n]) Unloaded UnloadError); [reflexivity | intros; congruence | discriminate].
  Qed.
  Lemma cli_start ns h h' out : runs_to h (loop say_start ns) h' out -> calm ls h ->
    calm ls h' /\ one_line_each (fun n => Started [n]) (fun n => SwitchError [n] []) ns out /\ exists l, sublist l ns /\ (forall n, In n l <-> In (Started [n]) out) /\
    board ls h' = switched l [] (board ls h) /\ (forall n, In n l -> In n (names (board ls h)) /\ ~ running (board ls h) n) /\
    (forall n, In n ns -> In n (names (board ls h)) -> ~ running (board ls h) n -> ~ In n l -> objection ls h h' [n] []).
  Proof.
    intros E C. destruct (loop_runs start_controller (fun n ok => if ok then [Started [n]] else [SwitchError [n] []]) _ _ _ _ _ (fun n => eq_refl) E) as (h1 & oks & L & -> & X & Y).
    destruct (each_start ls _ _ _ _ X C) as (C1 & _ & B & O). pose proof (each_start_fits _ _ _ _ X C) as F. pose proof (executes_app ls _ _ _ _ _ Y) as P.
    pose proof (executes_app ls _ _ _ _ _ X) as P1.
    apply ret_inv in Y as (_ & C' & B'); [|exact C1].
    assert (G : forall (n : string) (b : bool), (if b then [Started [n]] else [SwitchError [n] []]) = [if b then Started [n] else SwitchError [n] []]) by (intros n []; reflexivity).
    split; [exact C'|]. split; [now apply (lines_each (fun n (ok : bool) => if ok then [Started [n]] else [SwitchError [n] []]) (fun n => Started [n]) (fun n => SwitchError [n] []))|]. exists (taken ns oks). split; [apply taken_sublist|]. split.
    { intros n. apply (lines_good (fun n (ok : bool) => if ok then [Started [n]] else [SwitchError [n] []]) (fun n => Started [n]) (fun n => SwitchError [n] [])); [exact G | intros; congruence | discriminate]. }
    split; [congruence|]. split; [exact F|]. intros n H1 H2 H3 H4. apply (objection_earlier ls _ _ h h1 h'); auto.
  Qed.
  Lemma cli_stop ns h h' out : runs_to h (loop say_stop ns) h' out -> calm ls h ->
    calm ls h' /\ one_line_each (fun n => Stopped [n]) (fun n => SwitchError [] [n]) ns out /\ exists l, sublist l ns /\ (forall n, In n l <-> In (Stopped [n]) out) /\
    board ls h' = switched [] l (board ls h) /\ (forall n, In n l -> running (board ls h) n) /\
    (forall n, In n ns -> running (board ls h) n -> ~ In n l -> objection ls h h' [] [n]).
  Proof.
    intros E C. destruct (loop_runs stop_controller (fun n ok => if ok then [Stopped [n]] else [SwitchError [] [n]]) _ _ _ _ _ (fun n => eq_refl) E) as (h1 & oks & L & -> & X & Y).
    destruct (each_stop ls _ _ _ _ X C) as (C1 & _ & B & O). pose proof (each_stop_fits _ _ _ _ X C) as F. pose proof (executes_app ls _ _ _ _ _ Y) as P.
    pose proof (executes_app ls _ _ _ _ _ X) as P1.
    apply ret_inv in Y as (_ & C' & B'); [|exact C1].
    assert (G : forall (n : string) (b : bool), (if b then [Stopped [n]] else [SwitchError [] [n]]) = [if b then Stopped [n] else SwitchError [] [n]]) by (intros n []; reflexivity).
    split; [exact C'|]. split; [now apply (lines_each (fun n (ok : bool) => if ok then [Stopped [n]] else [SwitchError [] [n]]) (fun n => Stopped [n]) (fun n => SwitchError [] [n]))|]. exists (taken ns oks). split; [apply taken_sublist|]. split.
    { intros n. apply (lines_good (fun n (ok : bool) => if ok then [Stopped [n]] else [SwitchError [] [n]]) (fun n => Stopped [n]) (fun n => SwitchError [] [n])); [exact G | intros; congruence | discriminate]. }
    split; [congruence|]. split; [exact F|]. intros n H1 H2 H3. apply (objection_earlier ls _ _ h h1 h'); auto.
  Qed.

  (** *** The end of the program *)
  Lemma then_ret {R} h (p : script R) h1 x : runs_to h p h1 x -> forall h', runs_to h1 (Ret x) h' x -> runs_to h p h' x.
  Proof.
    intros E. remember (Some x) as o. revert Heqo. induction E; intros Eo hh X; try discriminate Eo; subst.
    - eapply ex_env; eauto.
    - injection Eo as ->. exact X.
    - eapply ex_load; eauto.
    - eapply ex_unload; eauto.
    - eapply ex_list; eauto.
    - eapply ex_switch_refused; eauto.
    - eapply ex_switch; eauto.
    - eapply ex_reload_now; eauto.
    - eapply ex_reload; eauto.
  Qed.
  Lemma print_inv {R S} (p : script R) (f : R -> S) h h' r : runs_to h (bind p (fun o => Ret (f o))) h' r -> exists o, r = f o /\ runs_to h p h' o.
  Proof.
    intros E. apply bind_inv in E as (h1 & o & E1 & E2). destruct (ret_then alone (S := R) _ _ _ _ E2) as [-> K].
    exists o. split; [reflexivity|]. eapply then_ret; [exact E1|]. apply K. constructor.
  Qed.
  Lemma ends_inv p h h' out code : runs_to h (bind p (fun o : list said => Ret (o, 0%nat))) h' (out, code) -> code = 0%nat /\ runs_to h p h' out.
  Proof. intros E. apply print_inv in E as (o & E & X). injection E as -> ->. auto. Qed.
  Lemma pair_inv (p q : script (list said)) h h' out : runs_to h (bind p (fun o => bind q (fun o' => Ret (o ++ o')))) h' out ->
    exists h1 o o', out = o ++ o' /\ runs_to h p h1 o /\ runs_to h1 q h' o'.
  Proof.
    intros E. apply bind_inv in E as (h1 & o & E1 & E2). apply print_inv in E2 as (o' & -> & E2). eauto 6.
  Qed.

  Lemma Forall2_in_right {A B} (P : A -> B -> Prop) l l' y : Forall2 P l l' -> In y l' -> exists x, In x l /\ P x y.
  Proof. induction 1 as [|a b l l' H _ IH]; [intros []|]. intros [K|K]; [subst; exists a; split; [now left | exact H] | destruct (IH K) as (x & X & Y); exists x; split; [now right | exact Y]]. Qed.
  Lemma filter_sublist {A} (f : A -> bool) (l : list A) : sublist (filter f l) l.
  Proof. induction l as [|x l IH]; cbn; [constructor|]. destruct (f x); [now apply sub_keep | now apply sub_skip]. Qed.
  Lemma killed_board ns l b : (forall n, In n l -> In n ns) ->
    filter (fun x => negb (isin (fst x) ns) || started (snd x)) (switched [] l b) =
    filter (fun x => negb (isin (fst x) ns) || (started (snd x) && negb (isin (fst x) l))) b.
  Proof.
    intros Hl. rewrite switched_isin. assert (T : forall n, isin n ns = false -> isin n l = false).
    { intros n Hn. apply isin_false in Hn. apply isin_false. intros X. apply Hn. now apply Hl. }
    clear Hl. induction b as [|[n p] b IH]; [reflexivity|]. cbn [map filter fst snd isin existsb].
    change (existsb (String.eqb n) ns) with (isin n ns). change (existsb (String.eqb n) l) with (isin n l).
    destruct (isin n ns) eqn:I1; cbn [negb orb].
    - destruct (isin n l) eqn:I2, (started p) eqn:Sp; cbn; rewrite ?Sp; try exact IH. f_equal. exact IH.
    - rewrite (T n I1). cbn. f_equal. exact IH.
  Qed.
End Cli.
