(** Effects of whole scripts on the board. *)
From Coq Require Import Permutation Lia.
From Verif Require Import HwTypes Lifecycle CMModel CMSpec CMInv CMTrace ScriptModel ScriptSpec ScriptProofs.
Local Open Scope string_scope.
Local Open Scope list_scope.

Lemma names_app a b : names (a ++ b) = names a ++ names b.
Proof. apply map_app. Qed.
Lemma names_fresh l : names (fresh l) = l.
Proof. unfold names, fresh. rewrite map_map. cbn. apply map_id. Qed.
Lemma names_switched a b l : names (switched a b l) = names l.
Proof. rewrite switched_isin. unfold names. rewrite map_map. reflexivity. Qed.
Lemma sublist_nil {A} (l : list A) : sublist [] l.
Proof. induction l; constructor; auto. Qed.
Lemma sublist_in {A} (l' l : list A) x : sublist l' l -> In x l' -> In x l.
Proof. induction 1; cbn; intuition. Qed.
Lemma sublist_refl {A} (l : list A) : sublist l l.
Proof. induction l; [constructor | now apply sub_keep]. Qed.
Lemma taken_cons n l b oks : taken (n :: l) (b :: oks) = if b then n :: taken l oks else taken l oks.
Proof. unfold taken. cbn. destruct b; reflexivity. Qed.
Lemma taken_sublist l : forall oks, sublist (taken l oks) l.
Proof.
  induction l as [|n l IH]; intros oks; [constructor|]. destruct oks as [|b oks]; [unfold taken; cbn; apply sublist_nil|].
  rewrite taken_cons. destruct b; [apply sub_keep | apply sub_skip]; auto.
Qed.
Lemma taken_all l : forall oks, length oks = length l -> (forall b, In b oks -> b = true) -> taken l oks = l.
Proof.
  induction l as [|n l IH]; intros [|b oks] E A; cbn in E; try discriminate; [reflexivity|]. rewrite taken_cons, (A b (or_introl eq_refl)).
  f_equal. apply IH; [lia|]. intros x Hx. apply A. now right.
Qed.
Lemma filter_filter {A} (f g : A -> bool) l : filter f (filter g l) = filter (fun x => g x && f x) l.
Proof. induction l as [|x l IH]; [reflexivity|]. cbn. destruct (g x); cbn; [destruct (f x)|]; now rewrite IH. Qed.
Lemma filter_all {A} (f : A -> bool) l : (forall x, In x l -> f x = true) -> filter f l = l.
Proof. induction l as [|x l IH]; intros H; [reflexivity|]. cbn. rewrite (H x (or_introl eq_refl)). f_equal. apply IH. intros y Hy. apply H. now right. Qed.
Lemma filter_none {A} (f : A -> bool) l : (forall x, In x l -> f x = false) -> filter f l = [].
Proof. induction l as [|x l IH]; intros H; [reflexivity|]. cbn. rewrite (H x (or_introl eq_refl)). apply IH. intros y Hy. apply H. now right. Qed.
Lemma running_phase b n p : NoDup (names b) -> running b n -> In (n, p) b -> p = PStarted.
Proof.
  intros N R H. enough (E : (n, p) = (n, PStarted)) by congruence. apply (nodup_map_inj fst b); auto.
Qed.
Lemma running_names b n : running b n -> In n (names b).
Proof. intros H. apply (in_map fst) in H. exact H. Qed.
Lemma in_names b n : In n (names b) <-> exists p, In (n, p) b.
Proof.
  unfold names. rewrite in_map_iff. split; [intros ((m & p) & <- & H); eauto | intros (p & H); exists (n, p); auto].
Qed.
Lemma in_switched a b l n p : In (n, p) (switched a b l) <->
  exists q, In (n, q) l /\ p = if isin n a then PStarted else if isin n b && started q then PStopped else q.
Proof.
  rewrite switched_isin, in_map_iff. split.
  - intros ((m & q) & E & H). injection E as -> <-. eauto.
  - intros (q & H & ->). exists (n, q). auto.
Qed.
Lemma running_switched a b l n : NoDup (names l) ->
  (running (switched a b l) n <-> In n (names l) /\ In n a \/ running l n /\ ~ In n b).
Proof.
  intros N. unfold running at 1. rewrite in_switched. split.
  - intros (q & H & E). destruct (isin n a) eqn:Ia; [left; split; [apply in_names; eauto | now apply isin_spec]|].
    destruct (isin n b && started q) eqn:Ib; [discriminate|]. subst q. right. split; [exact H|].
    rewrite andb_true_r in Ib. now apply isin_false.
  - intros [[Hn Ha]|[Hr Hb]].
    + apply in_names in Hn as [q Hq]. exists q. apply isin_spec in Ha. rewrite Ha. auto.
    + exists PStarted. split; [exact Hr|]. apply isin_false in Hb. rewrite Hb. cbn. now destruct (isin n a).
Qed.
Lemma switched_nil b : switched [] [] b = b.
Proof. rewrite switched_isin. rewrite <- (map_id b) at 2. apply map_ext. intros [n p]. reflexivity. Qed.
Lemma switched_app a b x y : switched a b (x ++ y) = switched a b x ++ switched a b y.
Proof. apply map_app. Qed.
Lemma switched_other a b l : (forall n, In n (names l) -> ~ In n a /\ ~ In n b) -> switched a b l = l.
Proof.
  intros H. rewrite switched_isin. rewrite <- (map_id l) at 2. apply map_ext_in. intros [n p] Hn. cbn [fst snd].
  destruct (H n) as [A B]; [apply in_names; eauto|]. apply isin_false in A, B. now rewrite A, B.
Qed.

Section Scripts.
  Variables (ls : list loader).
  Local Notation runs_to h p h' r := (executes alone ls h p h' (Some r)).

  Lemma each_load h ns h' oks : runs_to h (each load_controller ns) h' oks -> calm ls h ->
    calm ls h' /\ length oks = length ns /\ board ls h' = board ls h ++ fresh (taken ns oks) /\
    (forall n, In n ns -> In n (names (board ls h')) \/ load_refused ls h h' n).
  Proof.
    revert h h' oks. induction ns as [|n ns IH]; intros h h' oks E C; cbn [each] in E.
    - apply ret_inv in E as (-> & C' & B'); auto. rewrite B'. cbn. rewrite app_nil_r. do 3 (split; [auto; fail|]). intros n [].
    - cbn [bind load_controller] in E. apply load_inv in E as (h1 & b & C1 & B1 & _ & R1 & P1 & E); [|exact C]. cbn [bind] in E.
      pose proof (executes_app ls _ _ _ _ _ E) as P2.
      apply bind_inv in E as (h2 & bs & E1 & E2). destruct (IH _ _ _ E1 C1) as (C2 & L2 & B2 & R2). pose proof (executes_app ls _ _ _ _ _ E2) as P3.
      apply ret_inv in E2 as (-> & C3 & B3); [|exact C2]. split; [exact C3|]. split; [cbn; lia|].
      split; [rewrite B3, B2, B1, taken_cons, <- app_assoc; destruct b; reflexivity|].
      intros m [<-|Hm].
      + rewrite B3, B2, B1, !names_app, !in_app_iff. destruct b; [left; left; right; now left|].
        destruct (R1 eq_refl) as [X|X]; [tauto | right; eapply load_refused_earlier; [exact P2 | exact X]].
      + rewrite B3. destruct (R2 m Hm) as [X|X]; [now left|right]. eapply load_refused_later; [exact P1|]. eapply load_refused_earlier; [exact P3 | exact X].
  Qed.

  Lemma each_unload h ns h' oks : runs_to h (each unload_controller ns) h' oks -> calm ls h ->
    calm ls h' /\ board ls h' = filter (fun x => negb (isin (fst x) ns) || started (snd x)) (board ls h).
  Proof.
    revert h h' oks. induction ns as [|n ns IH]; intros h h' oks E C; cbn [each] in E.
    - apply ret_inv in E as (-> & C' & B'); auto. split; [exact C'|]. rewrite B'. symmetry. apply filter_all. auto.
    - cbn [bind unload_controller] in E. apply unload_inv in E as (h1 & b & C1 & B1 & _ & E); [|exact C]. cbn [bind] in E.
      apply bind_inv in E as (h2 & bs & E1 & E2). destruct (IH _ _ _ E1 C1) as (C2 & B2).
      apply ret_inv in E2 as (-> & C3 & B3); [|exact C2]. split; [exact C3|].
      rewrite B3, B2, B1, filter_filter. apply filter_ext. intros [m p]. cbn [fst snd isin existsb].
      destruct (String.eqb m n), (isin m ns) eqn:Im, (started p); unfold isin in Im; rewrite ?Im; reflexivity.
  Qed.

  Lemma each_start h ns h' oks : runs_to h (each start_controller ns) h' oks -> calm ls h ->
    calm ls h' /\ length oks = length ns /\ board ls h' = switched (taken ns oks) [] (board ls h) /\
    (forall n, In n ns -> In n (names (board ls h)) -> ~ running (board ls h) n -> ~ In n (taken ns oks) -> objection ls h h' [n] []).
  Proof.
    revert h h' oks. induction ns as [|n ns IH]; intros h h' oks E C; cbn [each] in E.
    - apply ret_inv in E as (-> & C' & B'); auto. rewrite B'. cbn. rewrite switched_nil. repeat (split; [auto; fail|]). intros n [].
    - cbn [bind start_controller start_stop_controllers] in E. apply switch_inv in E as (h1 & b & C1 & B1 & F1 & O1 & P1 & E); [|exact C]. cbn [bind] in E.
      apply bind_inv in E as (h2 & bs & E1 & E2). destruct (IH _ _ _ E1 C1) as (C2 & L2 & B2 & O2).
      pose proof (executes_app ls _ _ _ _ _ E1) as P2. pose proof (executes_app ls _ _ _ _ _ E2) as P3. 
      apply ret_inv in E2 as (-> & C3 & B3); [|exact C2]. split; [exact C3|]. split; [cbn; lia|]. split.
      + rewrite B3, B2, B1, taken_cons. destruct b; [|reflexivity]. rewrite !switched_isin, map_map. apply map_ext. intros [m p].
        cbn [fst snd isin existsb]. destruct (String.eqb m n), (isin m (taken ns bs)) eqn:Im; unfold isin in Im; rewrite ?Im; reflexivity.
      + intros m Hm Km Rm Tm. rewrite taken_cons in Tm.
        assert (P23 : exists t, h' = h1 ++ t) by (destruct P2 as [t ->], P3 as [t' ->]; exists (t ++ t'); now rewrite app_assoc).
        assert (P12 : exists t, h2 = h ++ t) by (destruct P1 as [t ->], P2 as [t' ->]; exists (t ++ t'); now rewrite app_assoc).
        destruct (string_dec m n) as [->|Hne].
        * destruct b; [exfalso; apply Tm; now left|]. apply (objection_earlier ls _ _ h h1 h'); auto. apply (O1 eq_refl). left. split; [reflexivity|].
          split; [|intros x []]. intros x [<-|[]]. auto.
        * destruct Hm as [->|Hm]; [congruence|]. apply (objection_earlier ls _ _ h h2 h'); auto. apply (objection_later ls _ _ h h1 h2); auto.
          apply (O2 m Hm).
          -- rewrite B1. destruct b; [now rewrite names_switched | exact Km].
          -- rewrite B1. destruct b; [|exact Rm]. rewrite running_switched by apply board_names. intros [[_ [X|[]]]|[X _]]; congruence.
          -- intros X. apply Tm. destruct b; [now right | exact X].
  Qed.

  Lemma each_stop h ns h' oks : runs_to h (each stop_controller ns) h' oks -> calm ls h ->
    calm ls h' /\ length oks = length ns /\ board ls h' = switched [] (taken ns oks) (board ls h) /\
    (forall n, In n ns -> running (board ls h) n -> ~ In n (taken ns oks) -> objection ls h h' [] [n]).
  Proof.
    revert h h' oks. induction ns as [|n ns IH]; intros h h' oks E C; cbn [each] in E.
    - apply ret_inv in E as (-> & C' & B'); auto. rewrite B'. cbn. rewrite switched_nil. repeat (split; [auto; fail|]). intros n [].
    - cbn [bind stop_controller start_stop_controllers] in E. apply switch_inv in E as (h1 & b & C1 & B1 & F1 & O1 & P1 & E); [|exact C]. cbn [bind] in E.
      apply bind_inv in E as (h2 & bs & E1 & E2). destruct (IH _ _ _ E1 C1) as (C2 & L2 & B2 & O2).
      pose proof (executes_app ls _ _ _ _ _ E1) as P2. pose proof (executes_app ls _ _ _ _ _ E2) as P3. 
      apply ret_inv in E2 as (-> & C3 & B3); [|exact C2]. split; [exact C3|]. split; [cbn; lia|]. split.
      + rewrite B3, B2, B1, taken_cons. destruct b; [|reflexivity]. rewrite !switched_isin, map_map. apply map_ext. intros [m p].
        cbn [fst snd isin existsb]. destruct (String.eqb m n), (isin m (taken ns bs)) eqn:Im, (started p) eqn:Ip; unfold isin in Im; rewrite ?Im; cbn; rewrite ?Ip; reflexivity.
      + intros m Hm Rm Tm. rewrite taken_cons in Tm.
        assert (P23 : exists t, h' = h1 ++ t) by (destruct P2 as [t ->], P3 as [t' ->]; exists (t ++ t'); now rewrite app_assoc).
        assert (P12 : exists t, h2 = h ++ t) by (destruct P1 as [t ->], P2 as [t' ->]; exists (t ++ t'); now rewrite app_assoc).
        destruct (string_dec m n) as [->|Hne].
        * destruct b; [exfalso; apply Tm; now left|]. apply (objection_earlier ls _ _ h h1 h'); auto. apply (O1 eq_refl). left. split; [reflexivity|].
          split; [intros x []|]. intros x [<-|[]]. auto.
        * destruct Hm as [->|Hm]; [congruence|]. apply (objection_earlier ls _ _ h h2 h'); auto. apply (objection_later ls _ _ h h1 h2); auto.
          apply (O2 m Hm).
          -- rewrite B1. destruct b; [|exact Rm]. rewrite running_switched by apply board_names. right. split; [exact Rm|]. intros [X|[]]; congruence.
          -- intros X. apply Tm. destruct b; [now right | exact X].
  Qed.

  (** *** spawner *)
  Lemma spawner_load_inv h ns acc h' l : runs_to h (spawner_load ns acc) h' l -> calm ls h ->
    exists l2, l = acc ++ l2 /\ sublist l2 ns /\ calm ls h' /\ board ls h' = board ls h ++ fresh l2 /\
      (forall n, In n ns -> In n (names (board ls h')) \/ load_refused ls h h' n).
  Proof.
    revert h acc. induction ns as [|n ns IH]; intros h acc E C; cbn [spawner_load] in E.
    - apply ret_inv in E as (-> & C' & B'); auto. exists []. rewrite !app_nil_r, B'. split; [reflexivity|]. split; [constructor|]. do 2 (split; [auto; fail|]). intros n [].
    - apply load_inv in E as (h1 & b & C1 & B1 & _ & R1 & P1 & E); [|exact C]. pose proof (executes_app ls _ _ _ _ _ E) as P2.
      destruct (IH _ _ E C1) as (l2 & -> & S & C2 & B2 & R2).
      assert (R3 : forall m, In m (n :: ns) -> In m (names (board ls h')) \/ load_refused ls h h' m).
      { intros m [<-|Hm].
        - rewrite B2, B1, !names_app, !in_app_iff. destruct b; [left; left; right; now left|].
          destruct (R1 eq_refl) as [X|X]; [tauto | right; eapply load_refused_earlier; [exact P2 | exact X]].
        - destruct (R2 m Hm) as [X|X]; [now left|right]. eapply load_refused_later; [exact P1 | exact X]. }
      destruct b.
      + exists (n :: l2). rewrite <- app_assoc. split; [reflexivity|]. split; [now apply sub_keep|]. split; [exact C2|]. split; [|exact R3].
        rewrite B2, B1, <- app_assoc. reflexivity.
      + exists l2. split; [reflexivity|]. split; [now apply sub_skip|]. split; [exact C2|]. split; [|exact R3]. rewrite B2, B1, app_nil_r. reflexivity.
  Qed.

  Lemma fresh_app_nodup h h' l : board ls h' = board ls h ++ fresh l -> NoDup l /\ (forall n, In n l -> ~ In n (names (board ls h))).
  Proof.
    intros B. pose proof (board_names ls h') as N. rewrite B, names_app, names_fresh in N. split.
    - clear -N. revert N. generalize (names (board ls h)). intros x. induction x as [|n x IH]; cbn; auto. intros N. inversion N. auto.
    - intros n Hn Hb. revert N Hb Hn. generalize (names (board ls h)). intros x. induction x as [|m x IH]; cbn; auto. intros N [->|Hb] Hl; inversion N; subst.
      + apply H1. apply in_app_iff. now right.
      + now apply IH.
  Qed.

  Lemma spawner_main_inv h stopped ns h' l ok : runs_to h (spawner_main stopped ns) h' (l, ok) -> calm ls h ->
    sublist l ns /\ calm ls h' /\ board ls h' = board ls h ++ map (fun n => (n, if ok then PStarted else PLoaded)) l /\
    (stopped = true -> ok = false) /\ (stopped = false -> ok = false -> objection ls h h' l []) /\
    (forall n, In n ns -> In n (names (board ls h')) \/ load_refused ls h h' n).
  Proof.
    intros E C. unfold spawner_main in E. apply bind_inv in E as (h1 & l1 & E1 & E2).
    pose proof (executes_app ls _ _ _ _ _ E1) as P1.
    pose proof (executes_app ls _ _ _ _ _ E2) as P0.
    destruct (spawner_load_inv _ _ _ _ _ E1 C) as (l2 & -> & S & C1 & B1 & R1). cbn [app] in *.
    destruct (fresh_app_nodup _ _ _ B1) as [Nl Dl]. destruct stopped.
    - apply ret_inv in E2 as (E2 & C2 & B2); [|exact C1]. injection E2 as -> ->. split; [exact S|]. split; [exact C2|]. split; [now rewrite B2, B1|]. split; [auto|]. split; [discriminate|].
      rewrite B2. intros n Hn. destruct (R1 n Hn) as [X|X]; [now left | right; eapply load_refused_earlier; [exact P0 | exact X]].
    - apply switch_inv in E2 as (h2 & x & C2 & B2 & _ & O2 & P2 & E2); [|exact C1]. pose proof (executes_app ls _ _ _ _ _ E2) as P3.
      apply ret_inv in E2 as (E2 & C3 & B3); [|exact C2]. injection E2 as -> ->.
      split; [exact S|]. split; [exact C3|]. split; [|split; [discriminate|split]].
      + rewrite B3, B2, B1. destruct x; [|reflexivity]. rewrite switched_app. f_equal.
        * apply switched_other. intros n Hn. split; [|auto]. intros H. exact (Dl n H Hn).
        * rewrite switched_isin. unfold fresh. rewrite map_map. apply map_ext_in. intros n Hn. cbn. apply isin_spec in Hn. now rewrite Hn.
      + intros _ ->. apply (objection_later ls _ _ h h1 h'); [exact P1 | destruct P2 as [t ->], P3 as [t' ->]; exists (t ++ t'); now rewrite app_assoc|].
        apply (objection_earlier ls _ _ h1 h2 h'); auto. apply (O2 eq_refl).
        left. split; [reflexivity|]. split; [|intros n []]. intros n Hn. rewrite B1, names_app, names_fresh. split; [apply in_app_iff; now right|].
        intros R. unfold running in R. apply in_app_iff in R as [R|R]; [apply (Dl n Hn); now apply running_names|].
        unfold fresh in R. apply in_map_iff in R as (m & Em & _). discriminate Em.
      + intros n Hn. rewrite B3, B2. assert (Nx : names (if x then switched l2 [] (board ls h1) else board ls h1) = names (board ls h1)) by (destruct x; [apply names_switched | reflexivity]).
        rewrite Nx. destruct (R1 n Hn) as [X|X]; [now left | right; eapply load_refused_earlier; [exact P0 | exact X]].
  Qed.

  Lemma shutdown_inv h l h' ok us : runs_to h (spawner_shutdown l) h' (ok, us) -> calm ls h ->
    calm ls h' /\
    board ls h' = filter (fun x => negb (isin (fst x) l) || (negb ok && started (snd x))) (board ls h) /\
    (ok = true -> forall n, In n l -> running (board ls h) n) /\
    (ok = false -> (forall n, In n l -> running (board ls h) n) -> objection ls h h' [] l).
  Proof.
    intros E C. unfold spawner_shutdown in E. apply switch_inv in E as (h1 & x & C1 & B1 & F1 & O1 & P1 & E); [|exact C]. pose proof (executes_app ls _ _ _ _ _ E) as P2.
    apply bind_inv in E as (h2 & us2 & E1 & E2). destruct (each_unload _ _ _ _ E1 C1) as (C2 & B2).
    apply ret_inv in E2 as (E2 & C3 & B3); [|exact C2]. injection E2 as -> ->. split; [exact C3|].
    assert (IR : forall n, isin n (rev l) = isin n l).
    { intros n. destruct (isin n l) eqn:I; [apply isin_spec; rewrite <- in_rev; now apply isin_spec | apply isin_false; rewrite <- in_rev; now apply isin_false]. }
    assert (B : board ls h' = filter (fun x0 => negb (isin (fst x0) l) || started (snd x0)) (board ls h1)).
    { rewrite B3, B2. apply filter_ext. intros [n p]. cbn. now rewrite IR. }
    split; [|split].
    - rewrite B, B1. destruct x; [|reflexivity]. rewrite switched_isin. clear. induction (board ls h) as [|[n p] b IH]; [reflexivity|].
      cbn [map filter fst snd isin existsb]. change (existsb (String.eqb n) l) with (isin n l). destruct (isin n l); cbn.
      + destruct (started p) eqn:Sp; cbn; rewrite ?Sp; cbn; exact IH.
      + f_equal. exact IH.
    - intros -> n Hn. exact (proj2 (F1 eq_refl eq_refl) n Hn).
    - intros -> A. apply (objection_earlier ls _ _ h h1 h'); auto. apply (O1 eq_refl). left. split; [reflexivity|]. split; [intros n [] | exact A].
  Qed.

  (** *** reload_libraries *)
  Lemma listing_names l b : map (fun e => (en_name e, en_state e)) l = map (fun x => (fst x, phase_string (snd x))) b -> map en_name l = names b.
  Proof.
    intros E. apply (f_equal (map fst)) in E. rewrite !map_map in E. exact E.
  Qed.
  Lemma listing_running l : forall b, map (fun e => (en_name e, en_state e)) l = map (fun x => (fst x, phase_string (snd x))) b ->
    map en_name (filter (fun c => String.eqb (en_state c) "running") l) = names (filter (fun x => started (snd x)) b).
  Proof.
    induction l as [|e l IH]; intros [|x b] E; cbn in E; try discriminate; [reflexivity|]. injection E as E1 E2 E3.
    cbn [filter]. rewrite E2. specialize (IH b E3). destruct x as [n p]. cbn [snd] in *. destruct p; cbn; rewrite ?IH; try reflexivity. now rewrite E1.
  Qed.

  Lemma restore_inv h h' oks st : runs_to h (reload_libraries_restore true) h' (true, oks, st) -> calm ls h ->
    calm ls h' /\ length oks = length (board ls h) /\
    board ls h' = map (fun n => (n, if st && isin n (names (filter (fun x => started (snd x)) (board ls h))) then PStarted else PLoaded))
                      (taken (names (board ls h)) oks) /\
    (st = false -> objection ls h h' (names (filter (fun x => started (snd x)) (board ls h))) []) /\
    (forall n, In n (names (board ls h)) -> In n (names (board ls h')) \/ load_refused ls h h' n).
  Proof.
    intros E C. unfold reload_libraries_restore in E.
    apply list_inv in E as (h1 & l & C1 & B1 & L & P1 & E); [|exact C].
    apply reload_inv in E as (h2 & x & X & P2 & E); [|exact C1].
    apply bind_inv in E as (h3 & oks2 & E1 & E2). pose proof (executes_app ls _ _ _ _ _ E1) as P3.
    cbv zeta in E2. rewrite (listing_running _ _ L) in E2. rewrite (listing_names _ _ L) in E1.
    pose proof (executes_app ls _ _ _ _ _ E2) as P4.
    assert (R : x = true /\ oks2 = oks).
    { clear -E2. remember (CSwitch _ _ _ _) as q. remember (Some _) as o. revert Heqq Heqo. induction E2; intros Eq Eo; try discriminate Eq; try discriminate Eo; auto.
      - injection Eq as -> -> -> ->. subst. remember (Ret _) as q. remember (Some _) as o. clear -E2 Heqq Heqo.
        revert Heqq Heqo. induction E2; intros Eq Eo; try discriminate Eq; try discriminate Eo; auto. injection Eq as ->. injection Eo. auto.
      - injection Eq as -> -> -> ->. subst. remember (Ret _) as q. remember (Some _) as o. clear -E2 Heqq Heqo.
        revert Heqq Heqo. induction E2; intros Eq Eo; try discriminate Eq; try discriminate Eo; auto. injection Eq as ->. injection Eo. auto. }
    destruct R as [-> ->]. destruct (X eq_refl) as [C2 B2]. destruct (each_load _ _ _ _ E1 C2) as (C3 & L3 & B3 & R3). rewrite B2 in B3. cbn [app] in B3.
    apply switch_inv in E2 as (h4 & y & C4 & B4 & _ & O4 & P5 & E2); [|exact C3]. pose proof (executes_app ls _ _ _ _ _ E2) as P6.
    apply ret_inv in E2 as (E2 & C5 & B5); [|exact C4]. injection E2 as ->.
    assert (P13 : exists t, h3 = h ++ t) by (destruct P1 as [t1 ->], P2 as [t2 ->], P3 as [t3 ->]; rewrite <- !app_assoc; eauto).
    assert (P12 : exists t, h2 = h ++ t) by (destruct P1 as [t1 ->], P2 as [t2 ->]; rewrite <- !app_assoc; eauto).
    split; [exact C5|]. split; [rewrite L3; apply map_length|]. split; [|split].
    - rewrite B5, B4, B3. destruct y; [|reflexivity]. rewrite switched_isin. unfold fresh. rewrite map_map. apply map_ext. intros n. cbn [fst snd].
      cbn [andb isin existsb]. reflexivity.
    - intros ->. apply (objection_later ls _ _ h h3 h'); auto. apply (objection_earlier ls _ _ h3 h4 h'); auto. apply (O4 eq_refl).
      right. split; [discriminate | intros n _ []].
    - intros n Hn. rewrite B5, B4. match goal with |- In n (names ?q) \/ _ => assert (Nx : names q = names (board ls h3)) by (destruct y; [apply names_switched | reflexivity]) end.
      rewrite Nx. destruct (R3 n Hn) as [X3|X3]; [now left | right]. eapply load_refused_later; [exact P12|]. eapply load_refused_earlier; [exact P4 | exact X3].
  Qed.

  (** *** groups *)
  Lemma listing_dict l : forall b, map (fun e => (en_name e, en_state e)) l = map (fun x => (fst x, phase_string (snd x))) b ->
    loaded_dict l = map (fun x => (fst x, started (snd x))) b.
  Proof.
    induction l as [|e l IH]; intros [|x b] E; cbn in E; try discriminate; [reflexivity|]. injection E as E1 E2 E3.
    cbn [loaded_dict map]. rewrite E1, E2. f_equal; [|apply IH; exact E3]. f_equal. destruct (snd x); reflexivity.
  Qed.
  Lemma dict_get_spec b n : NoDup (names b) -> (dict_get n (map (fun x => (fst x, started (snd x))) b) = true <-> running b n).
  Proof.
    unfold dict_get. intros N. induction b as [|[m p] b IH]; cbn [map find fst snd]; [split; [discriminate | intros []]|].
    inversion N; subst. destruct (String.eqb_spec m n) as [->|Hne].
    - cbn [snd]. rewrite started_spec. split; [intros ->; now left|]. intros [E|E]; [congruence|]. exfalso. apply H1. apply in_names. eauto.
    - rewrite (IH H2). unfold running. cbn [In]. intuition congruence.
  Qed.
  Lemma dict_in_spec b n : dict_in n (map (fun x => (fst x, started (snd x))) b) = true <-> In n (names b).
  Proof. unfold dict_in. rewrite isin_spec, map_map. reflexivity. Qed.

  Lemma group_load_inv d desired : forall h ts tst h' res, runs_to h (group_load d desired ts tst) h' res -> calm ls h ->
    calm ls h' /\
    match res with
    | NoGroup => False
    | Cancelled => exists l n post, filter (fun n => negb (dict_in n d)) desired = l ++ n :: post /\
                     board ls h' = board ls h ++ fresh l /\ (In n (names (board ls h')) \/ load_refused ls h h' n)
    | Switched ok =>
        let b1 := board ls h ++ fresh (filter (fun n => negb (dict_in n d)) desired) in
        let a := ts ++ filter (fun n => negb (dict_get n d)) desired in
        board ls h' = (if ok then switched a tst b1 else b1) /\ NoDup (names b1) /\
        (ok = true -> fits a tst b1) /\ (ok = false -> fits a tst b1 -> objection ls h h' a tst)
    end.
  Proof.
    induction desired as [|n desired IH]; intros h ts tst h' res E C; cbn [group_load] in E.
    - apply switch_inv in E as (h1 & x & C1 & B1 & F1 & O1 & P1 & E); [|exact C]. pose proof (executes_app ls _ _ _ _ _ E) as P2.
      apply ret_inv in E as (-> & C2 & B2); [|exact C1]. split; [exact C2|]. cbn [filter fresh map]. rewrite !app_nil_r. cbv zeta.
      split; [now rewrite B2|]. split; [apply board_names|]. split; [intros ->; auto|].
      intros -> F. apply (objection_earlier ls _ _ h h1 h'); auto.
    - assert (EA : (if dict_get n d then ts else ts ++ [n]) ++ filter (fun m => negb (dict_get m d)) desired = ts ++ filter (fun m => negb (dict_get m d)) (n :: desired)).
      { cbn [filter]. destruct (dict_get n d); cbn [negb]; [reflexivity|]. now rewrite <- app_assoc. }
      destruct (dict_in n d) eqn:Dn.
      + apply IH in E as [C' E]; [|exact C]. split; [exact C'|]. destruct res; auto.
        * cbn [filter]. rewrite Dn. exact E.
        * cbv zeta in E. rewrite EA in E. cbv zeta. assert (EF : filter (fun m => negb (dict_in m d)) (n :: desired) = filter (fun m => negb (dict_in m d)) desired) by (cbn [filter]; now rewrite Dn).
          rewrite EF. exact E.
      + apply load_inv in E as (h1 & b & C1 & B1 & _ & R1 & P1 & E); [|exact C]. destruct b.
        * pose proof (executes_app ls _ _ _ _ _ E) as P2. apply IH in E as [C' E]; [|exact C1]. split; [exact C'|].
          assert (EF : filter (fun m => negb (dict_in m d)) (n :: desired) = n :: filter (fun m => negb (dict_in m d)) desired) by (cbn [filter]; now rewrite Dn).
          rewrite EF. destruct res; auto.
          -- destruct E as (l & m & post & S & B & X). exists (n :: l), m, post. split; [cbn; now rewrite S|]. split; [rewrite B, B1, <- app_assoc; reflexivity|].
             destruct X as [X|X]; [now left | right; eapply load_refused_later; [exact P1 | exact X]].
          -- cbv zeta in *. rewrite EA in E. rewrite B1, <- app_assoc in E. change ([(n, PLoaded)] ++ fresh _) with (fresh (n :: filter (fun m => negb (dict_in m d)) desired)) in E.
             destruct E as (X1 & X2 & X3 & X4). repeat (split; [assumption|]). intros E1 F1. apply (objection_later ls _ _ h h1 h'); auto.
        * pose proof (executes_app ls _ _ _ _ _ E) as P2. apply ret_inv in E as (-> & C2 & B2); [|exact C1]. split; [exact C2|].
          exists [], n. eexists. split; [cbn [filter]; rewrite Dn; reflexivity|]. split; [rewrite B2, B1; reflexivity|].
          rewrite B2, B1, app_nil_r. destruct (R1 eq_refl) as [X|X]; [now left | right; eapply load_refused_earlier; [exact P2 | exact X]].
  Qed.

  Lemma read_group_spec gs g : NoDup (map fst gs) ->
    match read_group gs g with
    | None => forall n, ~ in_group gs g n
    | Some (desired, others) => (forall n, In n desired <-> in_group gs g n) /\ (forall n, In n others <-> in_any_group gs n /\ ~ in_group gs g n) /\ NoDup desired /\ desired <> []
    end.
  Proof.
    intros N. unfold read_group.
    set (raw := match find (fun x => String.eqb (fst x) g) gs with Some x => snd x | None => [] end).
    assert (D : forall n, In n raw <-> in_group gs g n).
    { intros n. unfold raw, in_group. destruct (find _ gs) as [[g' l]|] eqn:Ef.
      - apply find_some in Ef as [Hin Eg]. apply String.eqb_eq in Eg. cbn [fst snd] in *. subst g'. split; [eauto|]. intros (l' & Hl' & Hn).
        assert (E : (g, l') = (g, l)) by (apply (nodup_map_inj fst gs); auto). congruence.
      - split; [intros []|]. intros (l & Hl & _). pose proof (find_none _ _ Ef _ Hl) as X. cbn in X. rewrite String.eqb_refl in X. discriminate X. }
    assert (D' : forall n, In n (nodup string_dec raw) <-> in_group gs g n) by (intros n; rewrite nodup_In; apply D).
    destruct (nodup string_dec raw) as [|d0 ds] eqn:En.
    - intros n Hn. apply D' in Hn. destruct Hn.
    - rewrite <- En in *. split; [exact D'|]. split; [|split; [apply NoDup_nodup | congruence]]. intros n.
      rewrite filter_In, nodup_In, in_flat_map, negb_true_iff, isin_false, D'.
      assert (A : (exists x, In x gs /\ In n (snd x)) <-> in_any_group gs n).
      { unfold in_any_group, in_group. split; [intros ([g' l] & H1 & H2); exists g', l; auto | intros (g' & l & H1 & H2); exists (g', l); auto]. }
      rewrite A. reflexivity.
  Qed.

  Lemma switch_group_inv order gs g h h' res : enumerates order -> NoDup (map fst gs) ->
    runs_to h (switch_group order gs g) h' res -> calm ls h -> calm ls h' /\ group_effect gs g (board ls h) (board ls h') (objection ls h h') (load_refused ls h h') res.
  Proof.
    intros HO HG E C. unfold switch_group in E. pose proof (read_group_spec gs g HG) as RG. destruct (read_group gs g) as [[desired others]|].
    2:{ apply ret_inv in E as (-> & C' & B'); [|exact C]. split; [exact C' | split; assumption]. }
    destruct RG as (RD & RO & ND & NE).
    apply list_inv in E as (h1 & l & C1 & B1 & L & P1 & E); [|exact C]. cbv zeta in E. rewrite (listing_dict _ _ L) in E. pose proof (executes_app ls _ _ _ _ _ E) as P2.
    set (d := map (fun x => (fst x, started (snd x))) (board ls h)) in *.
    apply group_load_inv in E as [C2 E]; [|exact C1]. split; [exact C2|]. rewrite B1 in E.
    assert (OD : forall n, In n (order desired) <-> in_group gs g n).
    { intros n. rewrite <- RD. split; apply Permutation_in; [symmetry|]; apply HO. }
    assert (OO : forall n, In n (order others) <-> in_any_group gs n /\ ~ in_group gs g n).
    { intros n. rewrite <- RO. split; apply Permutation_in; [symmetry|]; apply HO. }
    assert (NL : forall n, In n (filter (fun n => negb (dict_in n d)) (order desired)) <-> in_group gs g n /\ ~ In n (names (board ls h))).
    { intros n. rewrite filter_In, OD, negb_true_iff. unfold d. rewrite <- dict_in_spec. destruct (dict_in n _); intuition congruence. }
    assert (NS : forall n, In n (filter (fun n => negb (dict_get n d)) (order desired)) <-> in_group gs g n /\ ~ running (board ls h) n).
    { intros n. rewrite filter_In, OD, negb_true_iff. unfold d. rewrite <- dict_get_spec by apply board_names. destruct (dict_get n _); intuition congruence. }
    assert (NT : forall n, In n (filter (fun n => dict_get n d) (order others)) <-> in_any_group gs n /\ ~ in_group gs g n /\ running (board ls h) n).
    { intros n. rewrite filter_In, OO. unfold d. rewrite dict_get_spec by apply board_names. tauto. }
    destruct res as [| |[|]]; [destruct E| | |].
    - destruct E as (l2 & m & post & S & B & X). exists l2. split; [exact B|].
      assert (NDD : NoDup (l2 ++ m :: post)) by (rewrite <- S; apply NoDup_filter; eapply Permutation_NoDup; [apply HO | exact ND]).
      split; [intros n Hn; apply NL; rewrite S; apply in_app_iff; now left|].
      assert (Hm : In m (filter (fun n => negb (dict_in n d)) (order desired))) by (rewrite S; apply in_app_iff; right; now left).
      apply NL in Hm as [M1 M2]. assert (Mb : ~ In m (names (board ls h'))).
      { rewrite B, names_app, names_fresh, in_app_iff. intros [Y|Y]; [contradiction|]. apply NoDup_remove_2 in NDD. apply NDD, in_app_iff. now left. }
      exists m. split; [exact M1|]. split; [exact Mb|]. destruct X as [X|X]; [contradiction | eapply load_refused_later; [exact P1 | exact X]].
    - cbv zeta in E. destruct E as (B & N1 & F & _). cbn [app] in *.
      exists (filter (fun n => negb (dict_in n d)) (order desired)). split; [rewrite B, names_switched, names_app, names_fresh; reflexivity|]. split; [exact NL|].
      assert (RF : forall n, running (board ls h ++ fresh (filter (fun n => negb (dict_in n d)) (order desired))) n <-> running (board ls h) n).
      { intros n. unfold running. rewrite in_app_iff. split; [|tauto]. intros [X|X]; [exact X|]. unfold fresh in X. apply in_map_iff in X as (m & Em & _). discriminate Em. }
      intros n. split.
      + intros Hg. rewrite B. apply running_switched; [exact N1|].
        destruct (isin n (names (filter (fun x => started (snd x)) (board ls h)))) eqn:Ir.
        * right. apply isin_spec in Ir. apply in_names in Ir as [p Hp]. apply filter_In in Hp as [Hp Sp]. cbn in Sp. apply started_spec in Sp. subst p.
          split; [now apply RF|]. rewrite NT. tauto.
        * left. assert (Rn : ~ running (board ls h) n).
          { intros X. apply isin_false in Ir. apply Ir. apply in_names. exists PStarted. apply filter_In. auto. }
          split; [|now apply NS]. rewrite names_app, names_fresh, in_app_iff.
          destruct (in_dec string_dec n (names (board ls h))) as [I|I]; [now left|right]. now apply NL.
      + assert (IN : forall q, ~ in_group gs g n -> In (n, q) (board ls h ++ fresh (filter (fun n => negb (dict_in n d)) (order desired))) <-> In (n, q) (board ls h)).
        { intros q Hg. rewrite in_app_iff. split; [|tauto]. intros [X|X]; [exact X|]. unfold fresh in X. apply in_map_iff in X as (m & Em & Hm). injection Em as -> _. apply NL in Hm. tauto. }
        assert (Ia : ~ in_group gs g n -> isin n (filter (fun n => negb (dict_get n d)) (order desired)) = false) by (intros Hg; apply isin_false; rewrite NS; tauto).
        split.
        * intros Ha Hg. rewrite B. split.
          -- intros X. apply running_switched in X as [[_ X]|[X Y]]; [| |exact N1].
             ++ apply NS in X. tauto.
             ++ apply RF in X. rewrite NT in Y. tauto.
          -- intros p Hp Hin. apply in_switched. exists p. split; [now apply IN|]. rewrite (Ia Hg).
             destruct (started p) eqn:Sp; [apply started_spec in Sp; contradiction|]. now rewrite andb_false_r.
        * intros Ha p. assert (Hg : ~ in_group gs g n) by (intros X; apply Ha; now exists g). rewrite B, in_switched, (Ia Hg).
          assert (Ib : isin n (filter (fun n => dict_get n d) (order others)) = false) by (apply isin_false; rewrite NT; tauto). rewrite Ib. cbn [andb].
          split; [intros (q & Hq & ->); now apply IN | intros Hq; exists p; split; [now apply IN | reflexivity]].
    - cbv zeta in E. destruct E as (B & N1 & _ & O). cbn [app] in *.
      assert (Fi : fits (filter (fun n => negb (dict_get n d)) (order desired)) (filter (fun n => dict_get n d) (order others))
                        (board ls h ++ fresh (filter (fun n => negb (dict_in n d)) (order desired)))).
      { split.
        - intros n Hn. apply NS in Hn as [Hg Hr]. split.
          + rewrite names_app, names_fresh, in_app_iff. destruct (in_dec string_dec n (names (board ls h))) as [I|I]; [now left|right]. now apply NL.
          + unfold running. rewrite in_app_iff. intros [X|X]; [contradiction|]. unfold fresh in X. apply in_map_iff in X as (m & Em & _). discriminate Em.
        - intros n Hn. apply NT in Hn as (_ & _ & R). unfold running. apply in_app_iff. now left. }
      eexists _, _, _. split; [exact B|]. split; [exact NL|]. split; [exact NS|]. split; [exact NT|]. split; [rewrite B; exact Fi|].
      apply (objection_later ls _ _ h h1 h'); auto.
  Qed.

  (** *** unspawner *)
  Lemma isin_in n l l' : (In n l <-> In n l') -> isin n l = isin n l'.
  Proof. intros H. apply eq_true_iff_eq. rewrite !isin_spec. exact H. Qed.

  Lemma switched_stop_same s s' b : NoDup (names b) -> (forall n, running b n -> (In n s <-> In n s')) -> switched [] s b = switched [] s' b.
  Proof.
    intros N H. rewrite !switched_isin. apply map_ext_in. intros [n p] Hn. cbn [fst snd isin existsb]. f_equal.
    destruct (started p) eqn:Sp; [|now rewrite !andb_false_r]. apply started_spec in Sp. subst p. now rewrite (isin_in n s s' (H n Hn)).
  Qed.

  Lemma listing_isrunning l b n : map (fun e => (en_name e, en_state e)) l = map (fun x => (fst x, phase_string (snd x))) b ->
    (isin n (map en_name (filter (fun c => String.eqb (en_state c) "running") l)) = true <-> running b n).
  Proof.
    intros L. rewrite (listing_running _ _ L), isin_spec, in_names. unfold running. split.
    - intros (p & H). apply filter_In in H as [H S]. cbn in S. apply started_spec in S. now subst.
    - intros H. exists PStarted. apply filter_In. auto.
  Qed.

  Lemma stop_inv order ti inh h h' inh' ok : enumerates order -> runs_to h (unspawner_stop order ti inh) h' (inh', ok) -> calm ls h -> NoDup inh ->
    calm ls h' /\ NoDup inh' /\ (forall n, In n inh' <-> In n inh \/ In n ti /\ running (board ls h) n) /\
    board ls h' = (if ok then switched [] ti (board ls h) else board ls h) /\
    (ok = false -> exists s, (forall n, In n s <-> In n ti /\ running (board ls h) n) /\ objection ls h h' [] s).
  Proof.
    intros HO E C NI. unfold unspawner_stop in E. apply list_inv in E as (h1 & l & C1 & B1 & L & P1 & E); [|exact C].
    pose proof (executes_app ls _ _ _ _ _ E) as P2. cbv zeta in E.
    set (ts := order _) in E.
    assert (TS : forall n, In n ts <-> In n ti /\ running (board ls h) n).
    { intros n. unfold ts. rewrite <- (listing_isrunning _ _ n L).
      transitivity (In n (filter (fun n => isin n (map en_name (filter (fun c => String.eqb (en_state c) "running") l))) (nodup string_dec ti))).
      - split; apply Permutation_in; [symmetry|]; apply HO.
      - rewrite filter_In, nodup_In. reflexivity. }
    assert (SW : switched [] ts (board ls h) = switched [] ti (board ls h)).
    { apply switched_stop_same; [apply board_names|]. intros n Hn. rewrite TS. tauto. }
    destruct ts as [|t0 tr] eqn:Et.
    - apply ret_inv in E as (E & C2 & B2); [|exact C1]. injection E as -> ->. split; [exact C2|]. split; [exact NI|]. split; [|split; [|discriminate]].
      + intros n. specialize (TS n). cbn in TS. tauto.
      + rewrite B2, B1, <- SW. now rewrite switched_nil.
    - rewrite <- Et in *. clear Et. apply switch_inv in E as (h2 & x & C2 & B2 & _ & O2 & P3 & E); [|exact C1].
      pose proof (executes_app ls _ _ _ _ _ E) as P4. apply ret_inv in E as (E & C3 & B3); [|exact C2]. injection E as -> ->.
      split; [exact C3|]. split; [apply NoDup_nodup|]. split; [|split].
      + intros n. rewrite nodup_In, in_app_iff, TS. reflexivity.
      + rewrite B3, B2, B1, SW. reflexivity.
      + intros ->. eexists. split; [exact TS|]. apply (objection_later ls _ _ h h1 h'); auto. apply (objection_earlier ls _ _ h1 h2 h'); auto.
        apply (O2 eq_refl). right. split; [discriminate | intros n []].
  Qed.

  Lemma not_running_after ti b n : NoDup (names b) -> ~ (In n ti /\ running (switched [] ti b) n).
  Proof. intros N [Hn R]. apply running_switched in R; [|exact N]. destruct R as [[_ []]|[_ R]]. contradiction. Qed.
  Lemma switched_twice ti b : NoDup (names b) -> switched [] ti (switched [] ti b) = switched [] ti b.
  Proof.
    intros N. rewrite !switched_isin, map_map. apply map_ext. intros [n p]. cbn [fst snd isin existsb]. f_equal.
    destruct (isin n ti) eqn:I; unfold isin in I; rewrite ?I; cbn; [|reflexivity]. destruct (started p) eqn:Sp; cbn; [reflexivity | now rewrite Sp].
  Qed.

  Lemma timer_inv order ti n : enumerates order -> forall inh h h' inh' oks, runs_to h (unspawner_timer order n ti inh) h' (inh', oks) -> calm ls h -> NoDup inh ->
    calm ls h' /\ NoDup inh' /\ length oks = n /\ board ls h' = (if existsb (fun x => x) oks then switched [] ti (board ls h) else board ls h) /\
    (forall m, In m inh' <-> In m inh \/ n <> 0%nat /\ In m ti /\ running (board ls h) m) /\
    (n <> 0%nat -> existsb (fun x => x) oks = true \/ exists s, (forall m, In m s <-> In m ti /\ running (board ls h) m) /\ objection ls h h' [] s).
  Proof.
    intros HO. induction n as [|n IH]; intros inh h h' inh' oks E C NI; cbn [unspawner_timer] in E.
    - apply ret_inv in E as (E & C' & B'); [|exact C]. injection E as -> ->. split; [exact C'|]. split; [exact NI|]. split; [reflexivity|]. split; [exact B'|]. split; [tauto|]. intros X; now destruct X.
    - apply bind_inv in E as (h1 & [inh1 ok1] & E1 & E2). apply bind_inv in E2 as (h2 & [inh2 oks2] & E2 & E3). cbn [fst snd] in *.
      destruct (stop_inv _ _ _ _ _ _ _ HO E1 C NI) as (C1 & N1 & I1 & B1 & O1). pose proof (executes_app ls _ _ _ _ _ E2) as P2. pose proof (executes_app ls _ _ _ _ _ E1) as P1. pose proof (executes_app ls _ _ _ _ _ E3) as P3.
      destruct (IH _ _ _ _ _ E2 C1 N1) as (C2 & N2 & L2 & B2 & I2 & _).
      apply ret_inv in E3 as (E3 & C3 & B3); [|exact C2]. injection E3 as -> ->. split; [exact C3|]. split; [exact N2|]. split; [cbn; lia|]. split; [|split].
      + rewrite B3, B2, B1. cbn [existsb]. destruct ok1; cbn [orb]; [|reflexivity]. destruct (existsb _ oks2); [|reflexivity]. apply switched_twice, board_names.
      + intros m. rewrite I2, I1, B1. split.
        * intros [[H|H]|(_ & H1 & H2)]; [now left | right; split; [discriminate | exact H]|]. right. split; [discriminate|]. split; [exact H1|].
          destruct ok1; [exfalso; eapply not_running_after; [apply (board_names ls h)|]; eauto | exact H2].
        * intros [H|[_ H]]; auto.
      + intros _. cbn [existsb]. destruct ok1; [now left|]. right. destruct (O1 eq_refl) as (s & S & O). exists s. split; [exact S|].
        apply (objection_earlier ls _ _ h h1 h'); auto. destruct P2 as [t ->], P3 as [t' ->]. exists (t ++ t'). now rewrite app_assoc.
  Qed.

  Lemma restart_inv order inh h h' ok : enumerates order -> runs_to h (unspawner_restart order inh) h' ok -> calm ls h ->
    calm ls h' /\ board ls h' = (if ok then switched inh [] (board ls h) else board ls h) /\
    (ok = false -> exists s, (forall n, In n s <-> In n inh) /\ objection ls h h' s []).
  Proof.
    intros HO E C. unfold unspawner_restart in E. apply switch_inv in E as (h1 & x & C1 & B1 & _ & O1 & P1 & E); [|exact C].
    pose proof (executes_app ls _ _ _ _ _ E) as P2. apply ret_inv in E as (-> & C2 & B2); [|exact C1].
    assert (HI : forall n, In n (order inh) <-> In n inh) by (intros n; split; apply Permutation_in; [symmetry|]; apply HO).
    split; [exact C2|]. split.
    - rewrite B2, B1. destruct x; [|reflexivity]. rewrite !switched_isin. apply map_ext. intros [n p]. cbn [fst snd]. now rewrite (isin_in n _ _ (HI n)).
    - intros ->. exists (order inh). split; [exact HI|]. apply (objection_earlier ls _ _ h h1 h'); auto. apply (O1 eq_refl). right. split; [discriminate | intros n _ []].
  Qed.

  Lemma restarted_same inh ti b : NoDup (names b) -> (forall n, In n inh <-> In n ti /\ running b n) ->
    switched inh [] (switched [] ti b) = b /\ switched inh [] b = b.
  Proof.
    intros N H. assert (Q : forall n p, In (n, p) b -> isin n inh = isin n ti && started p).
    { intros n p Hp. apply eq_true_iff_eq. rewrite andb_true_iff, !isin_spec, H, started_spec. split; intros [X Y]; split; auto.
      - eapply running_phase; eauto.
      - subst p. exact Hp. }
    split; rewrite !switched_isin, ?map_map; rewrite <- (map_id b) at 2; apply map_ext_in; intros [n p] Hp; cbn [fst snd]; rewrite (Q n p Hp); f_equal;
      cbn [isin existsb]; change (existsb (String.eqb n) ti) with (isin n ti);
      destruct (isin n ti), (started p) eqn:Sp; cbn; try reflexivity; symmetry; now apply started_spec.
  Qed.

  (** *** controller_manager spawn / kill, controller_group spawn *)
  Lemma spawn_inv ns h h' os ss : runs_to h (cm_spawn ns) h' (os, ss) -> calm ls h ->
    calm ls h' /\ length os = length ns /\ length ss = length ns /\
    board ls h' = switched (taken ns ss) [] (board ls h ++ fresh (taken ns os)) /\
    (forall n, In n ns -> In n (names (board ls h')) -> ~ running (board ls h') n -> objection ls h h' [n] []) /\
    (forall n, In n ns -> In n (names (board ls h')) \/ load_refused ls h h' n).
  Proof.
    intros E C. unfold cm_spawn in E. apply bind_inv in E as (h1 & os1 & E1 & E2). pose proof (executes_app ls _ _ _ _ _ E1) as P1.
    pose proof (executes_app ls _ _ _ _ _ E2) as P0.
    destruct (each_load _ _ _ _ E1 C) as (C1 & L1 & B1 & R1). apply bind_inv in E2 as (h2 & ss1 & E2 & E3). pose proof (executes_app ls _ _ _ _ _ E2) as P2.
    pose proof (executes_app ls _ _ _ _ _ E3) as P3.
    destruct (each_start _ _ _ _ E2 C1) as (C2 & L2 & B2 & O2). apply ret_inv in E3 as (E3 & C3 & B3); [|exact C2]. injection E3 as -> ->.
    split; [exact C3|]. split; [exact L1|]. split; [exact L2|]. split; [now rewrite B3, B2, B1|].
    split; [|intros n Hn; rewrite B3, B2, names_switched; destruct (R1 n Hn) as [X|X]; [now left | right; eapply load_refused_earlier; [exact P0 | exact X]]].
    intros n Hn Kn Rn. rewrite B3, B2 in *. rewrite names_switched in Kn. rewrite running_switched in Rn by apply board_names.
    assert (P12 : exists t, h2 = h ++ t) by (destruct P1 as [t ->], P2 as [t' ->]; exists (t ++ t'); now rewrite app_assoc).
    apply (objection_earlier ls _ _ h h2 h'); auto. apply (objection_later ls _ _ h h1 h2); auto.
    apply (O2 n Hn Kn); intros X; apply Rn; [right; split; [exact X | intros []] | left; auto].
  Qed.

  Lemma kill_inv ns h h' ss us : runs_to h (cm_kill ns) h' (ss, us) -> calm ls h ->
    calm ls h' /\ length ss = length ns /\
    board ls h' = filter (fun x => negb (isin (fst x) ns) || (started (snd x) && negb (isin (fst x) (taken ns ss)))) (board ls h) /\
    (forall n, In n ns -> In n (names (board ls h')) -> objection ls h h' [] [n]).
  Proof.
    intros E C. unfold cm_kill in E. apply bind_inv in E as (h1 & ss1 & E1 & E2). pose proof (executes_app ls _ _ _ _ _ E1) as P1.
    destruct (each_stop _ _ _ _ E1 C) as (C1 & L1 & B1 & O1). pose proof (executes_app ls _ _ _ _ _ E2) as P2.
    apply bind_inv in E2 as (h2 & us1 & E2 & E3). destruct (each_unload _ _ _ _ E2 C1) as (C2 & B2).
    apply ret_inv in E3 as (E3 & C3 & B3); [|exact C2]. injection E3 as -> ->. 
    assert (B : board ls h' = filter (fun x => negb (isin (fst x) ns) || (started (snd x) && negb (isin (fst x) (taken ns ss1)))) (board ls h)).
    { rewrite B3, B2, B1, switched_isin.
      assert (T : forall n, isin n ns = false -> isin n (taken ns ss1) = false).
      { intros n Hn. apply isin_false in Hn. apply isin_false. intros X. apply Hn. eapply sublist_in; [apply taken_sublist | exact X]. }
      clear -T. induction (board ls h) as [|[n p] b IH]; [reflexivity|]. cbn [map filter fst snd isin existsb].
      change (existsb (String.eqb n) ns) with (isin n ns). change (existsb (String.eqb n) (taken ns ss1)) with (isin n (taken ns ss1)).
      destruct (isin n ns) eqn:I1; cbn [negb orb].
      - destruct (isin n (taken ns ss1)) eqn:I2, (started p) eqn:Sp; cbn; rewrite ?Sp; try exact IH. f_equal. exact IH.
      - rewrite (T n I1). cbn. f_equal. exact IH. }
    split; [exact C3|]. split; [exact L1|]. split; [exact B|].
    intros n Hn Kn. rewrite B in Kn. apply in_names in Kn as [p Hp]. apply filter_In in Hp as [Hp X]. cbn [fst snd] in X. apply isin_spec in Hn as In1. rewrite In1 in X. cbn in X.
    apply andb_true_iff in X as [Sp Np]. apply started_spec in Sp. subst p. apply negb_true_iff, isin_false in Np.
    apply (objection_earlier ls _ _ h h1 h'); auto.
  Qed.

  Lemma spawn_group_inv order gs g h h' os ss : enumerates order -> NoDup (map fst gs) -> runs_to h (spawn_group order gs g) h' (os, ss) -> calm ls h ->
    calm ls h' /\ exists l a, (forall n, In n l -> in_group gs g n) /\ (forall n, In n a -> in_group gs g n) /\
      board ls h' = switched a [] (board ls h ++ fresh l) /\
      (forall n, in_group gs g n -> In n (names (board ls h')) -> ~ running (board ls h') n -> objection ls h h' [n] []) /\
      (forall n, in_group gs g n -> In n (names (board ls h')) \/ load_refused ls h h' n).
  Proof.
    intros HO HG E C. unfold spawn_group in E. pose proof (read_group_spec gs g HG) as RG. destruct (read_group gs g) as [[desired others]|].
    - destruct RG as (RD & _ & ND & _). change (runs_to h (cm_spawn (order desired)) h' (os, ss)) in E.
      destruct (spawn_inv _ _ _ _ _ E C) as (C' & _ & _ & B & O & R). split; [exact C'|].
      assert (OD : forall n, In n (order desired) <-> in_group gs g n).
      { intros n. rewrite <- RD. split; apply Permutation_in; [symmetry|]; apply HO. }
      exists (taken (order desired) os), (taken (order desired) ss). split; [|split; [|split; [|split]]].
      + intros n Hn. apply OD. eapply sublist_in; [apply taken_sublist | exact Hn].
      + intros n Hn. apply OD. eapply sublist_in; [apply taken_sublist | exact Hn].
      + exact B.
      + intros n Hn. apply O. now apply OD.
      + intros n Hn. apply R. now apply OD.
    - apply ret_inv in E as (E & C' & B'); [|exact C]. split; [exact C'|]. exists [], []. split; [intros n []|]. split; [intros n []|]. split.
      + rewrite switched_nil. cbn. now rewrite app_nil_r.
      + split; intros n Hn; destruct (RG n Hn).
  Qed.
End Scripts.
