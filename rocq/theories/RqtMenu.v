(** What the entries of the context menu do to a controller manager. *)
From Coq Require Import Permutation Lia.
From Verif Require Import CMSpec UtilsSpec ScriptModel ScriptSpec ScriptProofs ScriptMain RqtModel RqtSpec RqtProofs.
Local Open Scope string_scope.
Local Open Scope list_scope.

Lemma running_dec b n : running b n \/ ~ running b n.
Proof.
  unfold running. induction b as [|[m p] b IH]; [right; intros []|]. cbn [In]. destruct (string_dec m n) as [->|Ne].
  - destruct (started p) eqn:S.
    + apply started_spec in S. subst. left. now left.
    + destruct IH as [IH|IH]; [left; now right|]. right. intros [E|E]; [|auto]. injection E as ->. discriminate S.
  - destruct IH as [IH|IH]; [left; now right|]. right. intros [E|E]; [|auto]. congruence.
Qed.
Lemma unload_filter n b : NoDup (names b) -> unload_effect n b (filter (fun x => negb (String.eqb (fst x) n) || started (snd x)) b).
Proof.
  intros N. destruct (running_dec b n) as [R|R]; [left | right]; split; auto.
  - apply filter_all. intros [m p] Hm. cbn [fst snd]. destruct (String.eqb_spec m n) as [->|Ne]; [|reflexivity]. cbn. apply started_spec. eapply running_phase; eassumption.
  - apply filter_ext_in. intros [m p] Hm. cbn [fst snd]. destruct (String.eqb_spec m n) as [->|Ne]; [|reflexivity]. cbn.
    destruct (started p) eqn:S; [|reflexivity]. apply started_spec in S. subst. exfalso. exact (R Hm).
Qed.
Lemma without_switched n b : without n (switched [] [n] b) = without n b.
Proof.
  rewrite switched_isin. unfold without. induction b as [|[m p] b IH]; [reflexivity|]. cbn [map filter fst snd isin existsb].
  destruct (String.eqb m n) eqn:E; cbn [negb orb]; [exact IH|]. f_equal. exact IH.
Qed.
Lemma without_names n b : ~ In n (names (without n b)).
Proof. intros H. apply in_names in H as [p H]. unfold without in H. apply filter_In in H as [_ H]. cbn in H. now rewrite String.eqb_refl in H. Qed.
Lemma switched_new n b : ~ In n (names b) -> switched [n] [] (b ++ [(n, PLoaded)]) = b ++ [(n, PStarted)].
Proof.
  intros H. rewrite switched_app. f_equal.
  - apply switched_other. intros m Hm. split; [intros [->|[]]; auto | intros []].
  - rewrite switched_isin. cbn. now rewrite String.eqb_refl.
Qed.

Section Menu.
  Variable (ls : list loader).
  Local Notation runs_to h p h' r := (executes alone ls h p h' (Some r)).

  Lemma stop_inv {R} h n (k : bool -> script R) h' r : runs_to h (CSwitch [] [n] STRICT k) h' r -> calm ls h ->
    exists h1 (x : bool), calm ls h1 /\ (exists t, h1 = h ++ t) /\ runs_to h1 (k x) h' r /\
      (x = true /\ running (board ls h) n /\ board ls h1 = switched [] [n] (board ls h) \/
       x = false /\ board ls h1 = board ls h /\ (~ running (board ls h) n \/ objection ls h h1 [] [n])).
  Proof.
    intros E C. apply switch_inv in E as (h1 & x & C1 & B1 & F1 & O1 & P1 & E); [|exact C]. exists h1, x. repeat (split; [assumption|]).
    destruct x; [left | right]; (split; [reflexivity|]).
    - destruct (F1 eq_refl eq_refl) as [_ F]. split; [apply F; now left | exact B1].
    - split; [exact B1|]. destruct (running_dec (board ls h) n) as [R0|R0]; [|auto]. right. apply (O1 eq_refl). left. split; [reflexivity|].
      split; [intros m [] | intros m [<-|[]]; exact R0].
  Qed.
  Lemma start_inv {R} h n (k : bool -> script R) h' r : runs_to h (CSwitch [n] [] STRICT k) h' r -> calm ls h ->
    exists h1 (x : bool), calm ls h1 /\ (exists t, h1 = h ++ t) /\ runs_to h1 (k x) h' r /\ start_effect n (board ls h) (board ls h1) (objection ls h h1).
  Proof.
    intros E C. apply switch_inv in E as (h1 & x & C1 & B1 & F1 & O1 & P1 & E); [|exact C]. exists h1, x. repeat (split; [assumption|]). unfold start_effect.
    destruct x; [left | right].
    - destruct (F1 eq_refl eq_refl) as [F _]. destruct (F n (or_introl eq_refl)). auto.
    - split; [exact B1|]. destruct (in_dec string_dec n (names (board ls h))) as [I|I]; [|auto]. destruct (running_dec (board ls h) n) as [R0|R0]; [auto|].
      right. right. apply (O1 eq_refl). left. split; [reflexivity|]. split; [intros m [<-|[]]; auto | intros m []].
  Qed.
  Lemma ret_last {R} h (x : R) h' r : runs_to h (Ret x) h' r -> calm ls h -> calm ls h' /\ board ls h' = board ls h /\ exists t, h' = h ++ t.
  Proof. intros E C. pose proof (executes_app ls _ _ _ _ _ E). apply ret_inv in E as (_ & C' & B'); auto. Qed.

  Lemma menu_calls_effect st n a calls h h' r : menu_calls st n a = Some calls -> offers st a -> runs_to h calls h' r -> calm ls h ->
    calm ls h' /\ menu_effect a n (board ls h) (board ls h') (objection ls h h') (load_refused ls h h').
  Proof.
    intros E O X C. destruct O; vm_compute in E; injection E as <-; change 2%Z with STRICT in X; cbn [menu_effect].
    - apply stop_inv in X as (h1 & x & C1 & P1 & X & D); [|exact C]. apply ret_last in X as (C2 & B2 & P2); [|exact C1]. split; [exact C2|].
      unfold stop_effect. rewrite B2. destruct D as [(_ & R0 & B)|(_ & B & [D|D])]; auto. right. split; [exact B|]. right. now apply (objection_earlier ls _ _ h h1 h').
    - apply stop_inv in X as (h1 & x & C1 & P1 & X & D); [|exact C]. apply unload_inv in X as (h2 & y & C2 & B2 & P2 & X); [|exact C1].
      apply ret_last in X as (C3 & B3 & P3); [|exact C2]. split; [exact C3|].
      assert (P : exists t, h' = h1 ++ t) by (destruct P2 as [t ->], P3 as [t' ->]; exists (t ++ t'); now rewrite app_assoc).
      rewrite B3, B2. destruct (unload_filter n (board ls h1) (board_names ls h1)) as [[R1 U]|[R1 U]]; rewrite U; clear U.
      + destruct D as [(_ & R0 & B)|(_ & B & D)].
        * exfalso. rewrite B in R1. apply running_switched in R1; [|apply board_names]. destruct R1 as [[_ []]|[_ R1]]. apply R1. now left.
        * right. rewrite B in R1 |- *. split; [exact R1|]. split; [reflexivity|]. destruct D as [D|D]; [contradiction|]. now apply (objection_earlier ls _ _ h h1 h').
      + left. split; [apply without_names|]. destruct D as [(_ & R0 & B)|(_ & B & D)]; rewrite B; [apply without_switched | reflexivity].
    - apply start_inv in X as (h1 & x & C1 & P1 & X & D); [|exact C]. apply ret_last in X as (C2 & B2 & P2); [|exact C1]. split; [exact C2|].
      rewrite B2. destruct D as [D|(B & D)]; [now left|]. right. split; [exact B|]. destruct D as [D|[D|D]]; auto. right. right. now apply (objection_earlier ls _ _ h h1 h').
    - apply unload_inv in X as (h2 & y & C2 & B2 & P2 & X); [|exact C]. apply ret_last in X as (C3 & B3 & P3); [|exact C2]. split; [exact C3|].
      rewrite B3, B2. apply unload_filter. apply board_names.
    - apply start_inv in X as (h1 & x & C1 & P1 & X & D); [|exact C]. apply ret_last in X as (C2 & B2 & P2); [|exact C1]. split; [exact C2|].
      rewrite B2. destruct D as [D|(B & D)]; [now left|]. right. split; [exact B|]. destruct D as [D|[D|D]]; auto. right. right. now apply (objection_earlier ls _ _ h h1 h').
    - apply unload_inv in X as (h2 & y & C2 & B2 & P2 & X); [|exact C]. apply ret_last in X as (C3 & B3 & P3); [|exact C2]. split; [exact C3|].
      rewrite B3, B2. apply unload_filter. apply board_names.
    - apply load_inv in X as (h1 & b & C1 & B1 & N1 & NR1 & P1 & X); [|exact C]. apply ret_last in X as (C2 & B2 & P2); [|exact C1]. split; [exact C2|].
      rewrite B2, B1. unfold load_effect. destruct b; [left; auto | right; split; [apply app_nil_r|]].
      destruct (NR1 eq_refl) as [Y|Y]; [now left | right; eapply load_refused_earlier; [exact P2 | exact Y]].
    - apply load_inv in X as (h1 & b & C1 & B1 & N1 & NR1 & P1 & X); [|exact C].
      apply start_inv in X as (h2 & x & C2 & P2 & X & D); [|exact C1]. apply ret_last in X as (C3 & B3 & P3); [|exact C2]. split; [exact C3|]. rewrite B3.
      assert (P : exists t, h2 = h ++ t) by (destruct P1 as [t ->], P2 as [t' ->]; exists (t ++ t'); now rewrite app_assoc).
      assert (O : objection ls h1 h2 [n] [] -> objection ls h h' [n] []).
      { intros O. apply (objection_earlier ls _ _ h h2 h'); auto. now apply (objection_later ls _ _ h h1 h2). }
      destruct b.
      + left. specialize (N1 eq_refl). split; [exact N1|]. rewrite B1 in D. destruct D as [(_ & _ & D)|(B & D)].
        * left. rewrite D. now apply switched_new.
        * right. left. split; [exact B|]. destruct D as [D|[D|D]]; [exfalso | exfalso | auto].
          -- apply D. unfold names. rewrite map_app. apply in_app_iff. right. now left.
          -- unfold running in D. apply in_app_iff in D as [D|[D|[]]]; [|discriminate D]. apply N1. now apply running_names.
      + rewrite app_nil_r in B1. rewrite B1 in D. destruct (in_dec string_dec n (names (board ls h))) as [I|I].
        * right. split; [exact I|]. destruct D as [D|(B & D)]; [now left|]. right. split; [exact B|]. destruct D as [D|[D|D]]; auto.
        * left. split; [exact I|]. right. right. destruct D as [(D & _)|(B & _)]; [contradiction | split; [exact B|]].
          destruct (NR1 eq_refl) as [Y|Y]; [contradiction|]. eapply load_refused_earlier; [|exact Y].
          destruct P2 as [t ->], P3 as [t' ->]. exists (t ++ t'). now rewrite app_assoc.
  Qed.
End Menu.

(** Choosing an entry for [n] changes no other controller. *)
Lemma menu_effect_others a n b b' t rf m p : m <> n -> menu_effect a n b b' t rf -> (In (m, p) b' <-> In (m, p) b).
Proof.
  intros Ne. 
  assert (W : In (m, p) (without n b) <-> In (m, p) b).
  { unfold without. rewrite filter_In. cbn. destruct (String.eqb_spec m n); [congruence | cbn; tauto]. }
  assert (S1 : In (m, p) (switched [n] [] b) <-> In (m, p) b).
  { rewrite switched_isin, in_map_iff. split.
    - intros ([m' q] & E & H). cbn in E. injection E as -> <-. destruct (String.eqb_spec m n); [congruence|]. cbn. exact H.
    - intros H. exists (m, p). split; [|exact H]. cbn. destruct (String.eqb_spec m n); [congruence | reflexivity]. }
  assert (S2 : In (m, p) (switched [] [n] b) <-> In (m, p) b).
  { rewrite switched_isin, in_map_iff. split.
    - intros ([m' q] & E & H). cbn in E. injection E as -> <-. destruct (String.eqb_spec m n); [congruence|]. cbn. exact H.
    - intros H. exists (m, p). split; [|exact H]. cbn. destruct (String.eqb_spec m n); [congruence | reflexivity]. }
  assert (A : forall q, In (m, p) (b ++ [(n, q)]) <-> In (m, p) b).
  { intros q. rewrite in_app_iff. cbn. split; [intros [H|[H|[]]]; [exact H | congruence] | auto]. }
  assert (ST : start_effect n b b' t -> (In (m, p) b' <-> In (m, p) b)).
  { intros [(_ & _ & ->)|(-> & _)]; [exact S1 | reflexivity]. }
  destruct a; cbn [menu_effect]; auto.
  - intros [(_ & ->)|(-> & _)]; [exact S2 | reflexivity].
  - intros [(_ & ->)|(_ & -> & _)]; [exact W | reflexivity].
  - intros [(_ & ->)|(_ & ->)]; [reflexivity | exact W].
  - intros [(_ & ->)|(-> & _)]; [apply A | reflexivity].
  - intros [(_ & [->|[(-> & _)|(-> & _)]])|(_ & H)]; [apply A | apply A | reflexivity | auto].
Qed.
