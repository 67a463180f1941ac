(** Proofs about the interleaving model. *)
From Verif Require Import RaceModel RaceSpec.

Definition sp := (list nat * list nat * option (buf * list nat))%type.
Definition sp_step (x : sp) (e : ev) : sp :=
  let '(last, prev, w) := x in
  match e with
  | EBegin b l => (last, prev, Some (b, l))
  | EVisit i => (last, prev, match w with Some (b, _ :: r) => Some (b, r) | _ => w end)
  | EEnd b => (last, prev, None)
  | ECommit l => (l, last, w)
  | _ => x
  end.
Definition sp_after (x : sp) (tr : list ev) : sp := fold_left sp_step tr x.
Definition safe (x : sp) (tr : list ev) : Prop := let '(l, p, w) := x in list_safe l p w tr.

Lemma safe_app a : forall x b, safe x (a ++ b) <-> safe x a /\ safe (sp_after x a) b.
Proof.
  induction a as [|e a IH]; intros [[l p] w] b; [simpl; tauto|].
  assert (H : forall x1 x2 x3, list_safe x1 x2 x3 (a ++ b) <-> list_safe x1 x2 x3 a /\ safe (sp_after (x1, x2, x3) a) b)
    by (intros x1 x2 x3; apply (IH (x1, x2, x3))).
  destruct e; cbn [app list_safe safe sp_after fold_left sp_step]; rewrite ?H; unfold sp_after; try tauto.
  split.
  - intros (b0 & r & -> & Hx). apply H in Hx as [H1 H2]. split; [eauto|exact H2].
  - intros [(b0 & r & -> & Hx) H2]. exists b0, r. split; [reflexivity|]. apply H. auto.
Qed.

(** Contents of the lists after a write. *)
Lemma lists_set s b l c : lists (set_list s b l) c = if Bool.eqb c b then l else lists s c.
Proof. destruct b, c; reflexivity. Qed.
Lemma lists_other s b : lists s (negb (negb b)) = lists s b.
Proof. rewrite negb_involutive; reflexivity. Qed.

Definition holds_free (p : npc) : bool := match p with NBuild _ _ | NReady | NClear _ => true | _ => false end.

Record Inv (s : st) (x : sp) : Prop := {
  i_last : lists s (cur s) = fst (fst x);
  i_walk : match rt s with
           | RtReset k m => exists u, used s = Some u /\ snd x = Some (u, lists s u) /\ (m = true -> k < length (lists s u))
           | RtUpdate k => exists u, used s = Some u /\ snd x = Some (u, skipn k (lists s u))
           | _ => snd x = None
           end;
  i_load : forall b, rt s = RtLoaded b -> b = cur s \/ used s = Some b;
  i_free : forall u, used s = Some u -> holds_free (nrt s) = true -> u = cur s;
  i_prev : forall u, used s = Some u -> u <> cur s -> lists s u = snd (fst x);
  i_former : forall f, nrt s = NWait2 f \/ nrt s = NClear f -> f = negb (cur s);
  i_start : used s = None -> match rt s with RtIdle | RtLoaded _ => True | _ => False end }.

Definition start_ok (s : st) (acts : list act) : Prop :=
  match used s with
  | Some _ => True
  | None => match rt s with
            | RtLoaded _ => acts = [] \/ exists r p, acts = APublish r :: p
            | _ => first_cycle_atomic acts
            end
  end.

Lemma skipn_cons {A} k (l : list A) i : nth_error l k = Some i -> skipn k l = i :: skipn (S k) l.
Proof. revert k; induction l as [|a l IH]; intros [|k]; simpl; try discriminate; [congruence|]. apply IH. Qed.
Lemma skipn_none {A} k (l : list A) : nth_error l k = None -> skipn k l = [].
Proof. intros H. apply nth_error_None in H. apply skipn_all2; exact H. Qed.

Lemma firstn_in {A} k (l : list A) x : In x (firstn k l) -> In x l.
Proof. revert k; induction l as [|a l IH]; intros [|k]; simpl; intros H; try contradiction. destruct H; eauto. Qed.
Lemma firstn_nodup {A} k (l : list A) : NoDup l -> NoDup (firstn k l).
Proof. intros H; revert k; induction H as [|a l Ha Hl IH]; intros [|k]; simpl; constructor; auto. intros Hi; apply Ha; eapply firstn_in; eauto. Qed.
Lemma copied_in o k l i : In i (copied o (firstn k l)) -> In i l.
Proof. destruct o; simpl; intros H; [|apply filter_In in H as [H _]]; eapply firstn_in; eauto. Qed.
Lemma copied_nodup o k l : NoDup l -> NoDup (copied o (firstn k l)).
Proof. intros H; destruct o; simpl; [|apply NoDup_filter]; apply firstn_nodup; exact H. Qed.

Definition quiet (e : ev) : Prop := match e with EWrite _ | EDestroy _ _ | ECb _ _ | EReqBegin | EReqEnd | EReqWrite => True | _ => False end.
Lemma quiet_after e : Forall quiet e -> forall x, sp_after x e = x.
Proof. induction 1 as [|a e Ha He IH]; intros [[l p] w]; [reflexivity|]. unfold sp_after in *. simpl. destruct a; try contradiction; apply IH. Qed.
Lemma write_ev s b l : Forall quiet (snd (write s b l)).
Proof. unfold write; cbn. constructor; [exact I|]. apply Forall_forall. intros e He. apply in_map_iff in He as (i & <- & _). exact I. Qed.
Lemma write_safe s b l x : (forall b' r, snd x = Some (b', r) -> b' <> b) -> safe x (snd (write s b l)).
Proof.
  destruct x as [[la pr] w]. intros H. unfold write; cbn. split; [exact H|].
  match goal with |- context [map _ ?l] => generalize l end. intros l'. induction l'; simpl; auto.
Qed.

Lemma eqb_neg b : Bool.eqb b (negb b) = false. Proof. destruct b; reflexivity. Qed.
Lemma eqb_neg' b : Bool.eqb (negb b) b = false. Proof. destruct b; reflexivity. Qed.

(** Writing to the list that is not current, when the loop (if anywhere) is in the current one. *)
Lemma inv_write s x l p : Inv s x -> holds_free (nrt s) = true -> holds_free p = true \/ p = NIdle ->
  (forall f, p = NWait2 f \/ p = NClear f -> f = negb (cur s)) ->
  safe x (snd (write s (negb (cur s)) l)) /\
  forall n, Inv (set_nrt (set_next (fst (write s (negb (cur s)) l)) n) p) x.
Proof.
  intros [A B C D E F G] Hf Hp Hfm.
  assert (Hw : forall b' r, snd x = Some (b', r) -> b' <> negb (cur s)).
  { intros b' r Hx. destruct (rt s) eqn:Er; try congruence.
    - destruct B as (u & Hu & Hs & _). rewrite Hs in Hx. injection Hx as <- _. rewrite (D u Hu Hf). destruct (cur s); discriminate.
    - destruct B as (u & Hu & Hs). rewrite Hs in Hx. injection Hx as <- _. rewrite (D u Hu Hf). destruct (cur s); discriminate. }
  split; [apply write_safe; exact Hw|]. intros n.
  split; cbn [write fst set_nrt set_next set_list cur used rt nrt]; auto.
  - rewrite <- A. destruct (cur s); reflexivity.
  - destruct (rt s) eqn:Er; auto.
    + destruct B as (u & Hu & Hs & Hk). exists u. pose proof (D u Hu Hf) as ->. destruct (cur s); auto.
    + destruct B as (u & Hu & Hs). exists u. pose proof (D u Hu Hf) as ->. destruct (cur s); auto.
  - intros u Hu Hn. exfalso. apply Hn. apply D; assumption.
Qed.

(** One step. *)
Lemma inv_step s x a s' e :
  Inv s x -> step s a = Some (s', e) -> (forall ok1 ok2, a = NPoll ok1 ok2 -> ok1 = true) -> start_ok s [a] ->
  safe x e /\ Inv s' (sp_after x e).
Proof.
  intros HI Hs Hup Hst. pose proof HI as [A B C D E F G].
  destruct x as [[la pr] w]. cbn [fst snd] in *.
  destruct a; cbn [step] in Hs.
  - (* ARead *) destruct (rt s) eqn:Er; try discriminate. injection Hs as <- <-. split; [exact I|].
    split; cbn; auto. intros b [= <-]; auto.
  - (* APublish *) destruct (rt s) as [|b| | |] eqn:Er; try discriminate. injection Hs as <- <-. cbn.
    assert (Hl : lists s b = la \/ lists s b = pr).
    { destruct (C b eq_refl) as [->|Hu]; [left; exact A|]. destruct (Bool.bool_dec b (cur s)) as [->|Hn]; [left; exact A|right; auto]. }
    split; [rewrite B; auto|].
    split; cbn; auto.
    + destruct reset; exists b; cbn; repeat split; auto; discriminate.
    + destruct reset; discriminate.
    + intros u [= <-] Hf. destruct (C b eq_refl) as [?|Hu]; [assumption|]. apply D; assumption.
    + intros u [= <-] Hn. destruct (C b eq_refl) as [?|Hu]; [contradiction|]. apply E; assumption.
    + discriminate.
  - (* ARt *)
    destruct (used s) as [u|] eqn:Eu; [|discriminate].
    destruct (rt s) as [|b|k [|]|k|k] eqn:Er; try discriminate.
    + (* reset mid *)
      destruct B as (u' & [= <-] & Hx & Hk). destruct (nth_error (lists s u) k) as [i|] eqn:En.
      2:{ apply nth_error_None in En. specialize (Hk eq_refl). lia. }
      injection Hs as <- <-. split; [exact I|]. split; cbn; rewrite ?Eu; auto; try discriminate.
      exists u. cbn. repeat split; auto; discriminate.
    + destruct B as (u' & [= <-] & Hx & Hk). destruct (nth_error (lists s u) k) as [i|] eqn:En.
      * destruct (flags s i); injection Hs as <- <-; (split; [exact I|]); split; cbn; rewrite ?Eu; auto; try discriminate.
        -- exists u. cbn. repeat split; auto. intros _. apply nth_error_Some. change (lists (set_rt (set_flag s i false) (RtReset k true)) u) with (lists s u). congruence.
        -- exists u. cbn. repeat split; auto; discriminate.
      * injection Hs as <- <-. split; [exact I|]. split; cbn; rewrite ?Eu; auto; try discriminate. exists u; auto.
    + destruct B as (u' & [= <-] & Hx). destruct (nth_error (lists s u) k) as [i|] eqn:En.
      * injection Hs as <- <-. rewrite (skipn_cons _ _ _ En) in Hx. subst w. split.
        -- cbn. exists u, (skipn (S k) (lists s u)). auto.
        -- split; cbn; rewrite ?Eu; auto; try discriminate. exists u. cbn. auto.
      * rewrite (skipn_none _ _ En) in Hx. subst w.
        destruct (dosw s); injection Hs as <- <-; (split; [cbn; auto|]); split; cbn; rewrite ?Eu; auto; discriminate.
    + destruct (nth_error (reqs s) k) as [[i v]|]; [|discriminate]. injection Hs as <- <-. split; [exact I|].
      split; cbn; rewrite ?Eu; auto; discriminate.
  - (* ASwEnd *) destruct (rt s) as [| | | |k] eqn:Er; try discriminate. destruct (nth_error (reqs s) k); [discriminate|].
    injection Hs as <- <-. split; [exact I|]. split; cbn; auto; discriminate.
  - (* NBegin *) destruct (nrt s) eqn:En; try discriminate. injection Hs as <- <-. split; [exact I|].
    split; cbn; auto; try discriminate. intros f [?|?]; discriminate.
  - (* NPoll *) specialize (Hup _ _ eq_refl). subst ok1. destruct (nrt s) as [|o| | |f| |] eqn:En; try discriminate; cbn [andb] in Hs.
    + destruct (used s) as [u|] eqn:Eu.
      * destruct (Bool.eqb_spec (negb (cur s)) u) as [Hc|Hc]; cbn in Hs.
        -- destruct ok2; injection Hs as <- <-; (split; [exact I|]); [exact HI|].
           split; cbn; rewrite ?Eu in *; auto; try discriminate. intros f [?|?]; discriminate.
        -- injection Hs as <- <-. split; [exact I|]. split; cbn; rewrite ?Eu in *; auto; try discriminate.
           ++ intros v [= <-] _. destruct (cur s), u; simpl in *; congruence.
           ++ intros f [?|?]; discriminate.
      * cbn in Hs. injection Hs as <- <-. split; [exact I|]. split; cbn; rewrite ?Eu in *; auto; try discriminate.
        intros f [?|?]; discriminate.
    + destruct (used s) as [u|] eqn:Eu.
      * destruct (Bool.eqb_spec f u) as [Hc|Hc]; cbn in Hs.
        -- destruct ok2; injection Hs as <- <-; (split; [exact I|]); [exact HI|].
           split; cbn; rewrite ?Eu in *; auto; try discriminate. intros g [?|?]; discriminate.
        -- injection Hs as <- <-. split; [exact I|]. split; cbn; rewrite ?Eu in *; auto; try discriminate.
           ++ intros v [= <-] _. pose proof (F f (or_introl eq_refl)). destruct (cur s), u, f; simpl in *; congruence.
           ++ intros g [H|H]; [discriminate|]. injection H as <-. apply F; auto.
      * cbn in Hs. injection Hs as <- <-. split; [exact I|]. split; cbn; rewrite ?Eu in *; auto; try discriminate.
        intros g [H|H]; [discriminate|]. injection H as <-. apply F; auto.
  - (* NPut *) destruct (nrt s) as [| |o ok| | | |] eqn:En; try discriminate. injection Hs as <- <-. set (l := copied o (firstn k (lists s (cur s)))) in *.
    rewrite quiet_after by apply (write_ev s (negb (cur s)) l).
    destruct (inv_write s (la, pr, w) l (NBuild o ok) HI) as [H1 H2]; [rewrite En; reflexivity|auto|apply F|].
    split; [exact H1|]. specialize (H2 (next s)). cbn in H2. rewrite <- En in H2. exact H2.
  - (* NCheck *) destruct (nrt s) as [| |[|i] ok| | | |] eqn:En; try discriminate. destruct (inb i _); [|discriminate].
    destruct (flags s i).
    + injection Hs as <- <-. match goal with |- context [sp_after _ ?e] => change e with (snd (write s (negb (cur s)) [])) end.
      rewrite quiet_after by apply (write_ev s (negb (cur s)) []).
      destruct (inv_write s (la, pr, w) [] NIdle HI) as [H1 H2]; [rewrite En; reflexivity|auto|intros f [?|?]; discriminate|].
      split; [exact H1|]. specialize (H2 (next s)). exact H2.
    + injection Hs as <- <-. split; [exact I|]. split; cbn; auto; try discriminate. intros f [?|?]; discriminate.
  - (* NFail *) destruct (nrt s) as [| |o ok| | | |] eqn:En; try discriminate. injection Hs as <- <-. split; [exact I|].
    split; cbn; auto; try discriminate. intros f [?|?]; discriminate.
  - (* NFinish *) destruct (nrt s) as [| |[|i] ok| | | |] eqn:En; try discriminate; [|destruct ok; [|discriminate]];
    injection Hs as <- <-;
    match goal with |- context [sp_after _ (EWrite _ :: map _ (filter (fun i => negb (inb i ?l) && _) _))] =>
      match goal with |- context [sp_after _ ?e] => change e with (snd (write s (negb (cur s)) l)) end;
      rewrite quiet_after by apply (write_ev s (negb (cur s)) l);
      destruct (inv_write s (la, pr, w) l NReady HI) as [H1 H2]; [rewrite En; reflexivity|auto|intros f [?|?]; discriminate|];
      split; [exact H1|] end.
    + specialize (H2 (S (next s))). exact H2.
    + specialize (H2 (next s)). exact H2.
  - (* NCommit *) destruct (nrt s) eqn:En; try discriminate. injection Hs as <- <-. split; [exact I|].
    assert (Hrt : used s = None -> match rt s with RtIdle => True | _ => False end).
    { intros Hn. unfold start_ok in Hst. rewrite Hn in Hst. specialize (G Hn). destruct (rt s); auto.
      destruct Hst as [H|(r & p & H)]; discriminate. }
    split; cbn; auto.
    + intros b Hb. destruct (used s) as [u|] eqn:Eu; [|specialize (Hrt eq_refl); rewrite Hb in Hrt; contradiction].
      pose proof (D u eq_refl eq_refl) as ->. destruct (C b Hb) as [->|[= ->]]; auto.
    + discriminate.
    + intros u Hu Hn. assert (u = cur s) as -> by (apply D; auto). exact A.
    + intros f [[= <-]|?]; [|discriminate]. rewrite negb_involutive. reflexivity.
  - (* NClr *) destruct (nrt s) as [| | | | |f|] eqn:En; try discriminate. injection Hs as <- <-.
    assert (Hff : f = negb (cur s)) by auto. subst f.
    match goal with |- context [sp_after _ ?e] => change e with (snd (write s (negb (cur s)) [])) end.
    rewrite quiet_after by apply (write_ev s (negb (cur s)) []).
    destruct (inv_write s (la, pr, w) [] NIdle HI) as [H1 H2]; [rewrite En; reflexivity|auto|intros g [?|?]; discriminate|].
    split; [exact H1|]. specialize (H2 (next s)). exact H2.
  - (* NSwBegin *) destruct (nrt s) eqn:En; try discriminate. destruct (forallb _ _); [|discriminate]. injection Hs as <- <-. split; [exact I|].
    split; cbn; auto; try discriminate. intros f [?|?]; discriminate.
  - destruct (nrt s) eqn:En; try discriminate. destruct (dosw s); [discriminate|]. injection Hs as <- <-. split; [exact I|].
    split; cbn; auto; try discriminate. intros f [?|?]; discriminate.
  - destruct (nrt s) eqn:En; try discriminate. destruct (dosw s); [|discriminate]. injection Hs as <- <-. split; [exact I|].
    split; cbn; auto; try discriminate. intros f [?|?]; discriminate.
Qed.

Lemma atomic_head a acts : first_cycle_atomic (a :: acts) -> a <> ARead -> first_cycle_atomic acts.
Proof.
  intros H Ha pre post E Hn. apply (H (a :: pre) post); [rewrite E; reflexivity|]. intros [?|?]; auto.
Qed.

Lemma start_tail s a acts s' e : start_ok s (a :: acts) -> step s a = Some (s', e) -> start_ok s [a] /\ start_ok s' acts.
Proof.
  unfold start_ok. intros H Hs. destruct (used s) as [u|] eqn:Eu.
  - split; [exact I|]. assert (used s' <> None).
    { destruct a; cbn [step] in Hs; unfold write in Hs; rewrite ?Eu in Hs;
      repeat (match type of Hs with context [match ?x with _ => _ end] => destruct x; try discriminate end);
      injection Hs as <- _; cbn; rewrite ?Eu; discriminate. }
    destruct (used s'); [exact I|congruence].
  - destruct (rt s) as [|b|k m|k|k] eqn:Er.
    + split.
      * intros pre post E Hn. destruct pre as [|x pre]; [injection E as _ <-; auto|]. injection E as _ E. destruct pre; discriminate.
      * destruct a; cbn [step] in Hs; unfold write in Hs; rewrite ?Eu, ?Er in Hs;
        repeat (match type of Hs with context [match ?x with _ => _ end] => destruct x; try discriminate end);
        try discriminate; injection Hs as <- _; cbn; rewrite ?Eu, ?Er; try (eapply atomic_head; [exact H|discriminate]).
        destruct (H [] acts eq_refl (fun F => F)) as [->|(r & p & ->)]; eauto.
    + destruct H as [H|(r & p & [= -> ->])]; [discriminate|]. split; [eauto|].
      cbn [step] in Hs. rewrite Er in Hs. injection Hs as <- _. cbn. exact I.
    + split.
      * intros pre post E Hn. destruct pre as [|x pre]; [injection E as _ <-; auto|]. injection E as _ E. destruct pre; discriminate.
      * destruct a; cbn [step] in Hs; unfold write in Hs; rewrite ?Eu, ?Er in Hs; try discriminate;
        repeat (match type of Hs with context [match ?x with _ => _ end] => destruct x; try discriminate end);
        try discriminate; injection Hs as <- _; cbn; rewrite ?Eu, ?Er; eapply atomic_head; try exact H; discriminate.
    + split.
      * intros pre post E Hn. destruct pre as [|x pre]; [injection E as _ <-; auto|]. injection E as _ E. destruct pre; discriminate.
      * destruct a; cbn [step] in Hs; unfold write in Hs; rewrite ?Eu, ?Er in Hs; try discriminate;
        repeat (match type of Hs with context [match ?x with _ => _ end] => destruct x; try discriminate end);
        try discriminate; injection Hs as <- _; cbn; rewrite ?Eu, ?Er; eapply atomic_head; try exact H; discriminate.
    + split.
      * intros pre post E Hn. destruct pre as [|x pre]; [injection E as _ <-; auto|]. injection E as _ E. destruct pre; discriminate.
      * destruct a; cbn [step] in Hs; unfold write in Hs; rewrite ?Eu, ?Er in Hs; try discriminate;
        repeat (match type of Hs with context [match ?x with _ => _ end] => destruct x; try discriminate end);
        try discriminate; injection Hs as <- _; cbn; rewrite ?Eu, ?Er; eapply atomic_head; try exact H; discriminate.
Qed.

Lemma inv_run acts : forall s x s' e, Inv s x -> ros_up acts -> start_ok s acts -> run s acts = Some (s', e) ->
  safe x e /\ Inv s' (sp_after x e).
Proof.
  induction acts as [|a acts IH]; intros s x s' e HI Hup Hst Hr; simpl in Hr.
  - injection Hr as <- <-. split; [destruct x as [[? ?] ?]; exact I|exact HI].
  - destruct (step s a) as [[s1 e1]|] eqn:Es; [|discriminate].
    destruct (run s1 acts) as [[s2 e2]|] eqn:Er; [|discriminate]. injection Hr as <- <-.
    inversion Hup as [|? ? Ha Hup']; subst.
    destruct (start_tail _ _ _ _ _ Hst Es) as [H1 H2].
    destruct (inv_step s x a s1 e1 HI Es) as [S1 I1]; auto.
    { intros ok1 ok2 ->. exact Ha. }
    destruct (IH s1 (sp_after x e1) s2 e2 I1 Hup' H2 Er) as [S2 I2].
    split; [apply safe_app; auto|]. unfold sp_after in *. rewrite fold_left_app. exact I2.
Qed.

Lemma inv_init : Inv init ([], [], None).
Proof. split; cbn; auto; try discriminate. intros f [?|?]; discriminate. Qed.

Lemma lists_safe acts s tr : ros_up acts -> first_cycle_atomic acts -> run init acts = Some (s, tr) -> list_safe [] [] None tr.
Proof. intros H1 H2 H3. apply (inv_run acts init ([], [], None) s tr inv_init H1 H2 H3). Qed.

(** ** requests *)
Definition req_after (i : bool) (tr : list ev) : bool :=
  fold_left (fun i e => match e with EReqBegin => true | EReqEnd => false | _ => i end) tr i.
Lemma req_app a : forall i b, req_safe i (a ++ b) <-> req_safe i a /\ req_safe (req_after i a) b.
Proof.
  induction a as [|e a IH]; intros i b; [simpl; tauto|]. unfold req_after in *. destruct e; simpl; rewrite ?IH; tauto.
Qed.
Lemma req_quiet e i : Forall (fun x => match x with EReqBegin | EReqEnd | EReqWrite => False | _ => True end) e -> req_safe i e /\ req_after i e = i.
Proof. unfold req_after. induction 1 as [|x e Hx He IH]; [simpl; auto|]. destruct x; simpl in *; tauto. Qed.
Lemma write_req s b l : Forall (fun x => match x with EReqBegin | EReqEnd | EReqWrite => False | _ => True end) (snd (write s b l)).
Proof. unfold write; cbn. constructor; [exact I|]. apply Forall_forall. intros e He. apply in_map_iff in He as (i & <- & _). exact I. Qed.

Definition RInv (s : st) (i : bool) : Prop :=
  (match rt s with RtSw _ => i = true /\ dosw s = true | _ => i = false end) /\ (dosw s = true -> nrt s = NSwitch).

Lemma rinv_step s i a s' e : RInv s i -> step s a = Some (s', e) -> a <> NSwTimeout -> req_safe i e /\ RInv s' (req_after i e).
Proof.
  intros [A B] Hs Ha.
  assert (Hq : forall s1, rt s1 = rt s -> dosw s1 = dosw s -> (dosw s = true -> nrt s1 = NSwitch) ->
     forall e, Forall (fun x => match x with EReqBegin | EReqEnd | EReqWrite => False | _ => True end) e -> req_safe i e /\ RInv s1 (req_after i e)).
  { intros s1 E1 E2 E3 e0 He. destruct (req_quiet e0 i He) as [H1 ->]. split; [exact H1|]. split; [rewrite E1, E2; exact A|rewrite E2; exact E3]. }
  destruct a; cbn [step] in Hs.
  - destruct (rt s) eqn:Er; try discriminate. injection Hs as <- <-. cbn. split; [exact I|]. split; cbn; auto.
  - destruct (rt s) eqn:Er; try discriminate. injection Hs as <- <-. split; [exact I|]. split; cbn; auto. destruct reset; exact A.
  - destruct (used s) as [u|]; [|discriminate]. destruct (rt s) as [|b|k [|]|k|k] eqn:Er; try discriminate.
    + destruct (nth_error _ _); injection Hs as <- <-; (split; [exact I|]); split; cbn; auto.
    + destruct (nth_error _ _) as [j|]; [destruct (flags s j)|]; injection Hs as <- <-; (split; [exact I|]); split; cbn; auto.
    + destruct (nth_error _ _); [|destruct (dosw s) eqn:Ed]; injection Hs as <- <-; cbn; (split; [auto|]); split; cbn; rewrite ?Ed; auto.
    + destruct (nth_error _ _) as [[j v]|]; [|discriminate]. injection Hs as <- <-; cbn; (split; [auto|]); split; cbn; auto.
  - destruct (rt s) as [| | | |k] eqn:Er; try discriminate. destruct (nth_error _ _); [discriminate|].
    injection Hs as <- <-. cbn. split; [auto|]. split; cbn; auto. destruct done; [discriminate|exact B].
  - destruct (nrt s) eqn:En; try discriminate. injection Hs as <- <-. apply Hq; auto. intros H; specialize (B H); congruence.
  - destruct (nrt s) eqn:En; try discriminate;
    (destruct (match used s with Some _ => _ | None => false end); [destruct ok2|]); injection Hs as <- <-; apply Hq; auto; intros H; specialize (B H); congruence.
  - destruct (nrt s) as [| |o ok| | | |] eqn:En; try discriminate. injection Hs as <- <-.
    apply Hq; auto; try (intros H; specialize (B H); congruence). apply (write_req s (negb (cur s)) (copied o (firstn k (lists s (cur s))))).
  - destruct (nrt s) as [| |[|j] ok| | | |] eqn:En; try discriminate. destruct (inb _ _); [|discriminate]. destruct (flags s j).
    + injection Hs as <- <-. apply Hq; auto; try (intros H; specialize (B H); congruence). apply (write_req s (negb (cur s)) []).
    + injection Hs as <- <-. apply Hq; auto; try (intros H; specialize (B H); congruence).
  - destruct (nrt s) eqn:En; try discriminate. injection Hs as <- <-. apply Hq; auto. intros H; specialize (B H); congruence.
  - destruct (nrt s) as [| |[|j] [|]| | | |] eqn:En; try discriminate; injection Hs as <- <-;
    (apply Hq; auto; try (intros H; specialize (B H); congruence)); apply (write_req s (negb (cur s))).
  - destruct (nrt s) eqn:En; try discriminate. injection Hs as <- <-. apply Hq; auto. intros H; specialize (B H); congruence.
  - destruct (nrt s) eqn:En; try discriminate. injection Hs as <- <-. apply Hq; auto; try (intros H; specialize (B H); congruence). apply (write_req s former []).
  - destruct (nrt s) eqn:En; try discriminate. destruct (forallb _ _); [|discriminate]. injection Hs as <- <-.
    assert (Hn : match rt s with RtSw _ => False | _ => True end).
    { destruct (rt s); auto. destruct A as [_ A]. specialize (B A). congruence. }
    cbn. split; [destruct (rt s); auto; contradiction|]. split; cbn; auto. destruct (rt s); auto; contradiction.
  - destruct (nrt s) eqn:En; try discriminate. destruct (dosw s) eqn:Ed; [discriminate|]. injection Hs as <- <-.
    assert (Hn : match rt s with RtSw _ => False | _ => True end) by (destruct (rt s); auto; destruct A; congruence).
    cbn. split; [destruct (rt s); auto; contradiction|]. split; cbn; auto; try congruence. all: destruct (rt s); auto; contradiction.
  - congruence.
Qed.

Lemma requests_safe acts s tr : no_wall_timeout acts -> run init acts = Some (s, tr) -> req_safe false tr.
Proof.
  assert (X : forall acts s i s' e, RInv s i -> ~ In NSwTimeout acts -> run s acts = Some (s', e) -> req_safe i e).
  { clear. induction acts as [|a acts IH]; intros s i s' e HR Hn Hr; simpl in Hr; [injection Hr as <- <-; exact I|].
    destruct (step s a) as [[s1 e1]|] eqn:Es; [|discriminate].
    destruct (run s1 acts) as [[s2 e2]|] eqn:Er; [|discriminate]. injection Hr as <- <-. simpl in Hn.
    destruct (rinv_step s i a s1 e1 HR Es) as [S1 I1]; [intros ->; apply Hn; auto|].
    apply req_app. split; [exact S1|]. eapply IH; eauto. }
  intros H1 H2. eapply X; eauto. split; cbn; auto; discriminate.
Qed.

(** ** liveness of the two waits *)
Lemma former_reach acts : forall s s' e, (forall f, nrt s = NWait2 f -> f = negb (cur s)) -> run s acts = Some (s', e) ->
  forall f, nrt s' = NWait2 f -> f = negb (cur s').
Proof.
  induction acts as [|a acts IH]; intros s s' e H Hr; simpl in Hr; [injection Hr as <- <-; exact H|].
  destruct (step s a) as [[s1 e1]|] eqn:Es; [|discriminate].
  destruct (run s1 acts) as [[s2 e2]|] eqn:Er; [|discriminate]. injection Hr as <- <-.
  eapply IH; [|exact Er]. clear IH Er.
  destruct a; cbn [step] in Es;
  repeat (match type of Es with context [match ?x with _ => _ end] => destruct x eqn:?; try discriminate end);
  injection Es as <- _; cbn; intros f Hf; try discriminate; try (apply H; congruence);
  try (injection Hf as <-; symmetry; apply negb_involutive).
Qed.

Definition only_wait (a : act) : Prop :=
  match a with ARead | APublish _ | ARt | ASwEnd _ => True | NPoll true true => True | _ => False end.

Definition moved (p q : npc) : Prop := p = q \/ (exists o, p = NWait1 o /\ q = NBuild o false) \/ (exists f, p = NWait2 f /\ q = NClear f).

Lemma wait_step s a s' e : only_wait a -> step s a = Some (s', e) ->
  cur s' = cur s /\ ((forall o, nrt s = NWait1 o \/ exists f, nrt s = NWait2 f) -> True) /\
  (match nrt s with NWait1 _ | NWait2 _ | NBuild _ _ | NClear _ => moved (nrt s) (nrt s') | _ => True end) /\
  match a with
  | ARead => used s' = used s /\ rt s' = RtLoaded (cur s)
  | APublish _ => (exists b, rt s = RtLoaded b /\ used s' = Some b) /\ (forall b, rt s' <> RtLoaded b)
  | NPoll _ _ => used s' = used s /\ rt s' = rt s
  | _ => used s' = used s /\ (forall b, rt s' <> RtLoaded b)
  end.
Proof.
  intros Ho Hs. unfold moved. destruct a; try contradiction; cbn [step] in Hs.
  - destruct (rt s) eqn:Er; try discriminate. injection Hs as <- <-. cbn. repeat split; auto. destruct (nrt s); auto.
  - destruct (rt s) eqn:Er; try discriminate. injection Hs as <- <-. cbn. repeat split; eauto; [destruct (nrt s); auto|].
    destruct reset; discriminate.
  - destruct (used s) as [u|] eqn:Eu; [|discriminate].
    destruct (rt s) as [|b|k [|]|k|k] eqn:Er; try discriminate;
    repeat (match type of Hs with context [match ?x with _ => _ end] => destruct x; try discriminate end);
    injection Hs as <- <-; cbn; repeat split; auto; try discriminate; destruct (nrt s); auto.
  - destruct (rt s) as [| | | |k] eqn:Er; try discriminate. destruct (nth_error _ _); [discriminate|].
    injection Hs as <- <-; cbn; repeat split; auto; try discriminate; destruct (nrt s); auto.
  - destruct ok1, ok2; try contradiction.
    destruct (nrt s) eqn:En; try discriminate;
    (destruct (match used s with Some _ => _ | None => false end)); injection Hs as <- <-; cbn; rewrite ?En; repeat split; auto; right; eauto.
Qed.

Lemma wait_run acts : forall s s' e n, Forall only_wait acts -> run s acts = Some (s', e) ->
  (1 <= n -> forall b, rt s = RtLoaded b -> b = cur s) -> (2 <= n -> used s = Some (cur s)) ->
  (2 <= n + publishes acts -> used s' = Some (cur s')) /\ cur s' = cur s /\
  (match nrt s with NWait1 _ | NWait2 _ | NBuild _ _ | NClear _ => moved (nrt s) (nrt s') | _ => True end).
Proof.
  induction acts as [|a acts IH]; intros s s' e n Ho Hr H1 H2; simpl in Hr.
  - injection Hr as <- <-. cbn. rewrite Nat.add_0_r. split; [exact H2|]. split; [reflexivity|]. destruct (nrt s); unfold moved; auto.
  - destruct (step s a) as [[s1 e1]|] eqn:Es; [|discriminate].
    destruct (run s1 acts) as [[s2 e2]|] eqn:Er; [|discriminate]. injection Hr as <- <-.
    inversion Ho as [|? ? Ha Ho']; subst.
    destruct (wait_step s a s1 e1 Ha Es) as (Hc & _ & Hm & Hx).
    set (d := match a with APublish _ => 1 | _ => 0 end).
    assert (Hd : publishes (a :: acts) = d + publishes acts) by (destruct a; reflexivity).
    destruct (IH s1 s2 e2 (n + d) Ho' Er) as (I1 & I2 & I3).
    { intros Hn b Hb. rewrite Hc. destruct a; try contradiction; cbn in *.
      - destruct Hx as [_ Hx]; congruence.
      - exfalso; eapply Hx; eauto.
      - exfalso; eapply Hx; eauto.
      - exfalso; eapply Hx; eauto.
      - destruct Hx as [_ Hx]. apply H1; [subst d; lia|congruence]. }
    { intros Hn. rewrite Hc. destruct a; try contradiction; cbn in *.
      - destruct Hx as [Hx _]. rewrite Hx. apply H2. subst d; lia.
      - destruct Hx as [(b & Hb & ->) _]. f_equal. apply H1; [subst d; lia|exact Hb].
      - destruct Hx as [Hx _]. rewrite Hx. apply H2. subst d; lia.
      - destruct Hx as [Hx _]. rewrite Hx. apply H2. subst d; lia.
      - destruct Hx as [Hx _]. rewrite Hx. apply H2. subst d; lia. }
    rewrite Hd. split; [intros Hn; apply I1; lia|]. split; [congruence|].
    unfold moved in *. destruct (nrt s) eqn:En; auto;
    (destruct Hm as [Hm|[(o' & Hm1 & Hm2)|(f' & Hm1 & Hm2)]]; [rewrite <- Hm in I3; exact I3| |]); rewrite Hm2 in I3;
    (destruct I3 as [I3|[(o2 & ? & ?)|(f2 & ? & ?)]]; try discriminate); rewrite <- I3; eauto.
Qed.

Lemma waits_end acts seg s tr s' e : run init acts = Some (s, tr) -> (exists o, nrt s = NWait1 o) \/ (exists f, nrt s = NWait2 f) ->
  only_waits seg -> run s seg = Some (s', e) -> 2 <= publishes seg ->
  nrt s' <> nrt s \/ exists s'' e', step s' (NPoll true true) = Some (s'', e') /\ nrt s'' <> nrt s.
Proof.
  intros Hr Hw Ho Hs Hp.
  assert (Ho' : Forall only_wait seg) by exact Ho.
  destruct (wait_run seg s s' e 0 Ho' Hs) as (H1 & H2 & H3); [lia|lia|]. specialize (H1 Hp).
  pose proof (former_reach acts init s tr ltac:(discriminate) Hr) as Hf.
  destruct Hw as [(o & Hw)|(f & Hw)]; rewrite Hw in *.
  - destruct H3 as [H3|[(o' & H3 & H4)|(f' & H3 & H4)]]; try discriminate; [|left; rewrite H4; discriminate].
    right. exists (set_nrt s' (NBuild o false)), []. cbn [step]. rewrite <- H3, H1, eqb_neg'. cbn. split; [reflexivity|discriminate].
  - destruct H3 as [H3|[(o' & H3 & H4)|(f' & H3 & H4)]]; try discriminate; [|left; rewrite H4; discriminate].
    right. exists (set_nrt s' (NClear f)), []. cbn [step]. rewrite <- H3, H1, (Hf f eq_refl), H2, eqb_neg'. cbn. split; [reflexivity|discriminate].
Qed.

(** ** destruction *)
Lemma inb_spec i l : inb i l = true <-> In i l.
Proof. unfold inb. rewrite existsb_exists. split; [intros (j & H & E); apply Nat.eqb_eq in E; subst; exact H|intros H; exists i; split; [exact H|apply Nat.eqb_refl]]. Qed.
Lemma inb_false i l : inb i l = false <-> ~ In i l.
Proof. rewrite <- inb_spec. destruct (inb i l); split; congruence. Qed.

Definition calm (e : ev) : Prop := match e with EDestroy _ r => r = false | _ => True end.

Record DInv (s : st) : Prop := {
  d_dead : forall i, In i (lists s (negb (cur s))) -> ~ In i (lists s (cur s)) -> flags s i = false;
  d_fresh : forall i, next s <= i -> flags s i = false;
  d_lt : forall b i, In i (lists s b) -> i < next s;
  d_checked : forall i, nrt s = NBuild (OUnload i) true -> flags s i = false;
  d_ready : nrt s = NReady -> forall i, In i (lists s (cur s)) -> ~ In i (lists s (negb (cur s))) -> flags s i = false;
  d_req : forall i v, In (i, v) (reqs s) -> nrt s = NSwitch /\ In i (lists s (cur s));
  d_former : forall f, nrt s = NWait2 f \/ nrt s = NClear f -> f = negb (cur s);
  d_noreset : match rt s with RtReset _ _ => False | _ => True end }.

Lemma calm_write s b l : DInv s -> b = negb (cur s) ->
  Forall calm (snd (write s b l)).
Proof.
  intros [D1 _ _ _ _ _ _ _] ->. unfold write; cbn. constructor; [exact I|]. apply Forall_forall. intros e He.
  apply in_map_iff in He as (i & <- & Hi). cbn. apply filter_In in Hi as [Hi Hx]. apply andb_true_iff in Hx as [_ Hx].
  rewrite negb_involutive in Hx. apply negb_true_iff, inb_false in Hx. apply D1; assumption.
Qed.

Lemma dinv_write s l p n : DInv s -> (forall i, nrt s <> NReady /\ reqs s = [] /\ (i = i :> nat)) -> incl l (lists s (cur s)) \/ (forall i, In i l -> In i (lists s (cur s)) \/ i = next s /\ n = S (next s)) ->
  (next s <= n) -> (forall i, In i l -> i < n) ->
  (p = NIdle \/ (exists o ok, p = NBuild o ok /\ nrt s = NBuild o ok) \/
   (p = NReady /\ forall i, In i (lists s (cur s)) -> ~ In i l -> flags s i = false)) ->
  DInv (set_nrt (set_next (fst (write s (negb (cur s)) l)) n) p).
Proof.
  intros [D1 D2 D3 D4 D5 D6 D7 D8] Hx Hl Hn Hlt Hp.
  destruct (Hx 0) as (Hx1 & Hx2 & _).
  assert (Lc : lists (set_nrt (set_next (fst (write s (negb (cur s)) l)) n) p) (cur s) = lists s (cur s)) by (cbn; destruct (cur s); reflexivity).
  assert (Lf : lists (set_nrt (set_next (fst (write s (negb (cur s)) l)) n) p) (negb (cur s)) = l) by (cbn; destruct (cur s); reflexivity).
  split; cbn [cur flags next nrt reqs rt set_nrt set_next write fst set_list]; auto.
  - intros i Hi Hc. change (lists _ (cur s)) with (lists (set_nrt (set_next (fst (write s (negb (cur s)) l)) n) p) (cur s)) in Hc.
    change (lists _ (negb (cur s))) with (lists (set_nrt (set_next (fst (write s (negb (cur s)) l)) n) p) (negb (cur s))) in Hi.
    rewrite Lc in Hc. rewrite Lf in Hi. destruct Hl as [Hl|Hl]; [exfalso; auto|].
    destruct (Hl i Hi) as [?|[-> _]]; [contradiction|]. apply D2; lia.
  - intros i Hi. apply D2; lia.
  - intros b i Hi. destruct (Bool.bool_dec b (cur s)) as [->|Hb].
    + change (lists _ (cur s)) with (lists (set_nrt (set_next (fst (write s (negb (cur s)) l)) n) p) (cur s)) in Hi. rewrite Lc in Hi.
      specialize (D3 _ _ Hi). lia.
    + assert (b = negb (cur s)) as -> by (clear - Hb; destruct b, (cur s); simpl; congruence).
      change (lists _ (negb (cur s))) with (lists (set_nrt (set_next (fst (write s (negb (cur s)) l)) n) p) (negb (cur s))) in Hi. rewrite Lf in Hi. auto.
  - intros i Hi. destruct Hp as [->|[(o & ok & -> & Ho)|[-> _]]]; try discriminate. apply D4. congruence.
  - intros Hr i Hi Hni. change (lists _ (cur s)) with (lists (set_nrt (set_next (fst (write s (negb (cur s)) l)) n) p) (cur s)) in Hi.
    change (lists _ (negb (cur s))) with (lists (set_nrt (set_next (fst (write s (negb (cur s)) l)) n) p) (negb (cur s))) in Hni.
    rewrite Lc in Hi. rewrite Lf in Hni. destruct Hp as [->|[(o & ok & -> & _)|[-> H]]]; try discriminate. auto.
  - rewrite Hx2. intros i v [].
  - intros f Hf. destruct Hp as [->|[(o & ok & -> & _)|[-> H]]]; destruct Hf; discriminate.
Qed.

Lemma dinv_step s a s' e : DInv s -> step s a = Some (s', e) -> (forall r, a = APublish r -> r = false) -> Forall calm e /\ DInv s'.
Proof.
  intros HD Hs Ha. pose proof HD as [D1 D2 D3 D4 D5 D6 D7 D8].
  assert (Hnr : forall o ok, nrt s = NBuild o ok -> forall i : nat, nrt s <> NReady /\ reqs s = [] /\ i = i).
  { intros o ok En i. split; [congruence|]. split; [|reflexivity]. destruct (reqs s) as [|[j v] l] eqn:Er; [reflexivity|].
    exfalso. destruct (D6 j v (or_introl eq_refl)). congruence. }
  destruct a; cbn [step] in Hs.
  - destruct (rt s) eqn:Er; try discriminate. injection Hs as <- <-. split; [constructor|]. split; cbn; auto.
  - specialize (Ha _ eq_refl). subst reset. destruct (rt s) eqn:Er; try discriminate. injection Hs as <- <-. split; [repeat constructor|]. split; cbn; auto.
  - destruct (used s) as [u|] eqn:Eu; [|discriminate]. destruct (rt s) as [|b|k m|k|k] eqn:Er; try discriminate; [contradiction| |].
    + destruct (nth_error _ _); [|destruct (dosw s)]; injection Hs as <- <-; (split; [repeat constructor|]); split; cbn; auto.
    + destruct (nth_error (reqs s) k) as [[i v]|] eqn:En; [|discriminate]. injection Hs as <- <-. split; [repeat constructor|].
      apply nth_error_In in En. destruct (D6 _ _ En) as [Hn Hi].
      split; cbn; auto.
      * intros j Hj Hc. destruct (Nat.eqb_spec j i) as [->|]; [contradiction|]. apply D1; assumption.
      * intros j Hj. destruct (Nat.eqb_spec j i) as [->|]; [|auto]. specialize (D3 _ _ Hi). lia.
      * congruence.
      * congruence.
  - destruct (rt s) as [| | | |k] eqn:Er; try discriminate. destruct (nth_error _ _); [discriminate|].
    injection Hs as <- <-. split; [repeat constructor|]. split; cbn; auto.
  - destruct (nrt s) eqn:En; try discriminate. injection Hs as <- <-. split; [constructor|]. split; cbn; auto; try discriminate.
    + intros i v Hi. destruct (D6 _ _ Hi); discriminate.
    + intros f [?|?]; discriminate.
  - destruct (nrt s) as [|o| | |f| |] eqn:En; try discriminate;
    (destruct (match used s with Some _ => _ | None => false end); [destruct ok2|]); injection Hs as <- <-; (split; [constructor|]); auto; split; cbn; auto; try discriminate;
    try (intros i v Hi; destruct (D6 _ _ Hi); discriminate); try (intros g [?|?]; discriminate).
    intros g [?|H]; [discriminate|]. injection H as <-. auto.
  - destruct (nrt s) as [| |o ok| | | |] eqn:En; try discriminate. injection Hs as <- <-. set (l := copied o (firstn k (lists s (cur s)))) in *.
    assert (Hin : incl l (lists s (cur s))) by (intros i Hi; eapply copied_in; eauto).
    split; [apply (calm_write s (negb (cur s)) l HD eq_refl)|].
    assert (X : DInv (set_nrt (set_next (fst (write s (negb (cur s)) l)) (next s)) (nrt s))).
    { apply dinv_write; eauto; [rewrite En; eapply Hnr; eauto|]. rewrite En. right; left; eauto. }
    exact X.
  - destruct (nrt s) as [| |[|i] ok| | | |] eqn:En; try discriminate. destruct (inb _ _) eqn:Ei; [|discriminate]. destruct (flags s i) eqn:Ef.
    + injection Hs as <- <-. split; [apply (calm_write s (negb (cur s)) [] HD eq_refl)|].
      assert (X : DInv (set_nrt (set_next (fst (write s (negb (cur s)) [])) (next s)) NIdle)).
      { apply dinv_write; auto; [rewrite En; eapply Hnr; eauto|left; intros j []|intros j []]. }
      exact X.
    + injection Hs as <- <-. split; [constructor|]. split; cbn; auto; try discriminate.
      * intros j [= <-]. exact Ef.
      * intros j v Hj. destruct (D6 _ _ Hj); discriminate.
      * intros f [?|?]; discriminate.
  - destruct (nrt s) as [| |o ok| | | |] eqn:En; try discriminate. injection Hs as <- <-. split; [constructor|].
    split; cbn; auto; try discriminate. intros j v Hj. destruct (D6 _ _ Hj); discriminate. intros f [?|?]; discriminate.
  - destruct (nrt s) as [| |[|i] ok| | | |] eqn:En; try discriminate; [|destruct ok; [|discriminate]]; injection Hs as <- <-.
    + split; [apply (calm_write s (negb (cur s)) (lists s (cur s) ++ [next s]) HD eq_refl)|].
      assert (X : DInv (set_nrt (set_next (fst (write s (negb (cur s)) (lists s (cur s) ++ [next s]))) (S (next s))) NReady)).
      { apply dinv_write; auto; [rewrite En; eapply Hnr; eauto| | |].
        - right. intros i Hi. apply in_app_iff in Hi as [Hi|[<-|[]]]; auto.
        - intros i Hi. apply in_app_iff in Hi as [Hi|[<-|[]]]; [specialize (D3 _ _ Hi)|]; lia.
        - right; right. split; [reflexivity|]. intros i Hi Hni. exfalso. apply Hni. apply in_app_iff; auto. }
      exact X.
    + split; [apply (calm_write s (negb (cur s)) (filter (fun j => negb (Nat.eqb i j)) (lists s (cur s))) HD eq_refl)|].
      assert (X : DInv (set_nrt (set_next (fst (write s (negb (cur s)) (filter (fun j => negb (Nat.eqb i j)) (lists s (cur s))))) (next s)) NReady)).
      { apply dinv_write; auto; [rewrite En; eapply Hnr; eauto| | |].
        - left. intros j Hj. apply filter_In in Hj as [Hj _]. exact Hj.
        - intros j Hj. apply filter_In in Hj as [Hj _]. eauto.
        - right; right. split; [reflexivity|]. intros j Hj Hnj. rewrite filter_In in Hnj.
          destruct (Nat.eqb_spec i j) as [<-|Hne]; [apply D4; reflexivity|]. exfalso. apply Hnj. split; [exact Hj|]. reflexivity. }
      exact X.
  - destruct (nrt s) eqn:En; try discriminate. injection Hs as <- <-. split; [repeat constructor|].
    split; cbn [set_nrt set_cur cur flags next nrt reqs rt]; auto; try discriminate.
    + intros i Hi Hc. rewrite negb_involutive in Hi. apply D5; auto.
    + intros i v Hi. destruct (D6 _ _ Hi); discriminate.
    + intros f [H|?]; [|discriminate]. injection H as <-. symmetry; apply negb_involutive.
  - destruct (nrt s) as [| | | | |f|] eqn:En; try discriminate. injection Hs as <- <-.
    assert (Hf : f = negb (cur s)) by auto. subst f.
    split; [apply (calm_write s (negb (cur s)) [] HD eq_refl)|].
    assert (X : DInv (set_nrt (set_next (fst (write s (negb (cur s)) [])) (next s)) NIdle)).
    { apply dinv_write; auto; [|left; intros j []|intros j []].
      intros i. rewrite En. split; [discriminate|]. split; [|reflexivity]. destruct (reqs s) as [|[j v] l] eqn:Er; [reflexivity|].
      exfalso. destruct (D6 j v (or_introl eq_refl)). congruence. }
    exact X.
  - destruct (nrt s) eqn:En; try discriminate. destruct (forallb _ _) eqn:Ef; [|discriminate]. injection Hs as <- <-. split; [repeat constructor|].
    split; cbn; auto; try discriminate.
    + intros i v Hi. split; [reflexivity|]. rewrite forallb_forall in Ef. apply inb_spec. apply (Ef (i, v)); exact Hi.
    + intros f [?|?]; discriminate.
  - destruct (nrt s) eqn:En; try discriminate. destruct (dosw s); [discriminate|]. injection Hs as <- <-. split; [repeat constructor|].
    split; cbn; auto; try discriminate. intros i v []. intros f [?|?]; discriminate.
  - destruct (nrt s) eqn:En; try discriminate. destruct (dosw s); [|discriminate]. injection Hs as <- <-. split; [repeat constructor|].
    split; cbn; auto; try discriminate. intros i v []. intros f [?|?]; discriminate.
Qed.

Lemma destroyed_calm acts s tr i r : no_resets acts -> run init acts = Some (s, tr) -> In (EDestroy i r) tr -> r = false.
Proof.
  assert (X : forall acts s s' e, DInv s -> no_resets acts -> run s acts = Some (s', e) -> Forall calm e).
  { clear. induction acts as [|a acts IH]; intros s s' e HD Hn Hr; simpl in Hr; [injection Hr as <- <-; constructor|].
    destruct (step s a) as [[s1 e1]|] eqn:Es; [|discriminate].
    destruct (run s1 acts) as [[s2 e2]|] eqn:Er; [|discriminate]. injection Hr as <- <-. inversion Hn as [|? ? Hh Ht]; subst.
    destruct (dinv_step s a s1 e1 HD Es) as [C1 D1]; [intros r ->; exact Hh|].
    apply Forall_app; split; [exact C1|]. eapply IH; eauto. }
  intros H1 H2 Hin. assert (F : Forall calm tr).
  { eapply X; eauto. split; cbn; auto; try discriminate; try contradiction. intros [] i0 []. intros f [?|?]; discriminate. }
  rewrite Forall_forall in F. apply (F _ Hin).
Qed.

(** ** committed lists *)
Definition good (last l : list nat) : Prop :=
  (exists i, ~ In i last /\ l = last ++ [i]) \/ (exists i pre post, last = pre ++ i :: post /\ l = pre ++ post).
Record CInv (s : st) (last : list nat) : Prop := {
  c_last : lists s (cur s) = last;
  c_nodup : forall b, NoDup (lists s b);
  c_lt : forall b i, In i (lists s b) -> i < next s;
  c_ready : nrt s = NReady -> good last (lists s (negb (cur s)));
  c_check : forall i, nrt s = NBuild (OUnload i) true -> In i last;
  c_former : forall f, nrt s = NWait2 f \/ nrt s = NClear f -> f = negb (cur s) }.

Definition no_commit (e : ev) : Prop := match e with ECommit _ => False | _ => True end.
Lemma commits_quiet e last : Forall no_commit e -> commits_ok last e.
Proof. induction 1 as [|x e Hx He IH]; simpl; auto. destruct x; simpl in *; tauto. Qed.
Definition last_after (last : list nat) (tr : list ev) : list nat :=
  fold_left (fun l e => match e with ECommit l' => l' | _ => l end) tr last.
Lemma last_quiet e last : Forall no_commit e -> last_after last e = last.
Proof. unfold last_after. induction 1 as [|x e Hx He IH]; simpl; auto. destruct x; simpl in *; tauto. Qed.
Lemma commits_app a : forall last b, commits_ok last (a ++ b) <-> commits_ok last a /\ commits_ok (last_after last a) b.
Proof. induction a as [|e a IH]; intros last b; [simpl; tauto|]. unfold last_after in *. destruct e; simpl; rewrite ?IH; tauto. Qed.
Lemma write_quiet s b l : Forall no_commit (snd (write s b l)).
Proof. unfold write; cbn. constructor; [exact I|]. apply Forall_forall. intros e He. apply in_map_iff in He as (i & <- & _). exact I. Qed.

Lemma filter_split i : forall l : list nat, NoDup l -> In i l ->
  exists pre post, l = pre ++ i :: post /\ filter (fun j => negb (Nat.eqb i j)) l = pre ++ post.
Proof.
  induction l as [|a l IH]; intros Hn Hi; [contradiction|]. inversion Hn as [|? ? Ha Hl]; subst. simpl.
  destruct (Nat.eqb_spec i a) as [->|Hne]; simpl.
  - exists [], l. split; [reflexivity|]. clear IH Hn Hl Hi. induction l as [|b l IH]; [reflexivity|]. simpl.
    destruct (Nat.eqb_spec a b) as [->|]; simpl; [exfalso; apply Ha; left; reflexivity|]. f_equal. apply IH. intros H; apply Ha; right; exact H.
  - destruct Hi as [->|Hi]; [congruence|]. destruct (IH Hl Hi) as (pre & post & -> & ->). exists (a :: pre), post. auto.
Qed.

Lemma nodup_snoc (l : list nat) i : NoDup l -> ~ In i l -> NoDup (l ++ [i]).
Proof.
  induction 1 as [|a l Ha Hl IH]; intros Hi; simpl; [repeat constructor; auto|]. constructor.
  - intros H. apply in_app_iff in H as [H|[<-|[]]]; [auto|]. apply Hi; left; reflexivity.
  - apply IH. intros H; apply Hi; right; exact H.
Qed.

Lemma cinv_write s last l n p : CInv s last -> NoDup l -> (forall i, In i l -> i < n) -> next s <= n ->
  (p = NReady -> good last l) -> (forall i, p = NBuild (OUnload i) true -> In i last) -> (forall f, ~ (p = NWait2 f \/ p = NClear f)) ->
  CInv (set_nrt (set_next (fst (write s (negb (cur s)) l)) n) p) last.
Proof.
  intros [C1 C2 C3 C4 C5 C6] Hd Hl Hn Hg Hc Hf.
  split; cbn [write fst set_nrt set_next set_list cur next nrt]; auto.
  - rewrite <- C1. destruct (cur s); reflexivity.
  - intros b. pose proof (C2 b) as Hb. destruct (cur s), b; cbn in *; auto.
  - intros b i Hi. pose proof (C3 b i) as Hb. destruct (cur s), b; cbn in *; auto; specialize (Hb Hi); lia.
  - intros Hp. specialize (Hg Hp). destruct (cur s); exact Hg.
  - intros f Hx. exfalso. eapply Hf; eauto.
Qed.

Lemma cinv_step s last a s' e : CInv s last -> step s a = Some (s', e) -> commits_ok last e /\ CInv s' (last_after last e).
Proof.
  intros HC Hs. pose proof HC as [C1 C2 C3 C4 C5 C6].
  assert (Q : forall s1 e1, Forall no_commit e1 -> CInv s1 last -> commits_ok last e1 /\ CInv s1 (last_after last e1)).
  { intros s1 e1 He H1. rewrite last_quiet by exact He. split; [apply commits_quiet; exact He|exact H1]. }
  destruct a; cbn [step] in Hs.
  - destruct (rt s); try discriminate. injection Hs as <- <-. apply Q; [constructor|]. split; auto.
  - destruct (rt s); try discriminate. injection Hs as <- <-. apply Q; [repeat constructor|]. split; auto.
  - destruct (used s) as [u|]; [|discriminate].
    destruct (rt s) as [|b|k [|]|k|k]; try discriminate;
    repeat (match type of Hs with context [match ?x with _ => _ end] => destruct x; try discriminate end);
    injection Hs as <- <-; (apply Q; [repeat constructor|split; auto]).
  - destruct (rt s) as [| | | |k]; try discriminate. destruct (nth_error _ _); [discriminate|]. injection Hs as <- <-. apply Q; [repeat constructor|]. split; auto.
  - destruct (nrt s) eqn:En; try discriminate. injection Hs as <- <-. apply Q; [repeat constructor|]. split; cbn; auto; try discriminate. intros f [?|?]; discriminate.
  - destruct (nrt s) as [|o| | |f| |] eqn:En; try discriminate;
    (destruct (match used s with Some _ => _ | None => false end); [destruct ok2|]); injection Hs as <- <-;
    (apply Q; [repeat constructor|]); try exact HC; split; cbn; auto; try discriminate; try (intros g [?|?]; discriminate).
    intros g [?|H]; [discriminate|]. injection H as <-. auto.
  - destruct (nrt s) as [| |o ok| | | |] eqn:En; try discriminate. injection Hs as <- <-. set (l := copied o (firstn k (lists s (cur s)))) in *.
    apply Q; [apply (write_quiet s (negb (cur s)) l)|].
    assert (X : CInv (set_nrt (set_next (fst (write s (negb (cur s)) l)) (next s)) (NBuild o ok)) last).
    { apply cinv_write; auto; try discriminate; [apply copied_nodup; auto| |intros f [?|?]; discriminate].
      intros i Hi. apply copied_in in Hi. eauto. }
    destruct X as [X1 X2 X3 X4 X5 X6]. split; auto; cbn in *; rewrite ?En; auto.
  - destruct (nrt s) as [| |[|i] ok| | | |] eqn:En; try discriminate. destruct (inb _ _) eqn:Ei; [|discriminate]. apply inb_spec in Ei. destruct (flags s i).
    + injection Hs as <- <-. apply Q; [apply (write_quiet s (negb (cur s)) [])|].
      assert (X : CInv (set_nrt (set_next (fst (write s (negb (cur s)) [])) (next s)) NIdle) last).
      { apply cinv_write; auto; try discriminate; [constructor|intros j []|intros f [?|?]; discriminate]. }
      exact X.
    + injection Hs as <- <-. apply Q; [constructor|]. split; cbn; auto; try discriminate.
      * intros j [= <-]. rewrite <- C1. exact Ei.
      * intros f [?|?]; discriminate.
  - destruct (nrt s) eqn:En; try discriminate. injection Hs as <- <-. apply Q; [repeat constructor|]. split; cbn; auto; try discriminate. intros f [?|?]; discriminate.
  - destruct (nrt s) as [| |[|i] ok| | | |] eqn:En; try discriminate; [|destruct ok; [|discriminate]]; injection Hs as <- <-.
    + apply Q; [apply (write_quiet s (negb (cur s)) (lists s (cur s) ++ [next s]))|].
      assert (Hni : ~ In (next s) (lists s (cur s))) by (intros H; apply C3 in H; lia).
      assert (X : CInv (set_nrt (set_next (fst (write s (negb (cur s)) (lists s (cur s) ++ [next s]))) (S (next s))) NReady) last).
      { apply cinv_write; auto; try discriminate.
        - apply nodup_snoc; auto.
        - intros i Hi. apply in_app_iff in Hi as [Hi|[<-|[]]]; [specialize (C3 _ _ Hi)|]; lia.
        - intros _. left. exists (next s). rewrite <- C1. auto.
        - intros f [?|?]; discriminate. }
      exact X.
    + apply Q; [apply (write_quiet s (negb (cur s)) (filter (fun j => negb (Nat.eqb i j)) (lists s (cur s))))|].
      assert (X : CInv (set_nrt (set_next (fst (write s (negb (cur s)) (filter (fun j => negb (Nat.eqb i j)) (lists s (cur s))))) (next s)) NReady) last).
      { apply cinv_write; auto; try discriminate.
        - apply NoDup_filter; auto.
        - intros j Hj. apply filter_In in Hj as [Hj _]. eauto.
        - intros _. right. exists i. rewrite <- C1. apply filter_split; auto. rewrite C1. auto.
        - intros f [?|?]; discriminate. }
      exact X.
  - destruct (nrt s) eqn:En; try discriminate. injection Hs as <- <-. split; [split; [apply C4; reflexivity|exact I]|].
    split; cbn; auto; try discriminate. intros f [H|?]; [|discriminate]. injection H as <-. symmetry; apply negb_involutive.
  - destruct (nrt s) as [| | | | |f|] eqn:En; try discriminate. injection Hs as <- <-.
    assert (Hff : f = negb (cur s)) by auto. subst f. apply Q; [apply (write_quiet s (negb (cur s)) [])|].
    assert (X : CInv (set_nrt (set_next (fst (write s (negb (cur s)) [])) (next s)) NIdle) last).
    { apply cinv_write; auto; try discriminate; [constructor|intros j []|intros f [?|?]; discriminate]. }
    exact X.
  - destruct (nrt s) eqn:En; try discriminate. destruct (forallb _ _); [|discriminate]. injection Hs as <- <-. apply Q; [repeat constructor|]. split; cbn; auto; try discriminate. intros f [?|?]; discriminate.
  - destruct (nrt s) eqn:En; try discriminate. destruct (dosw s); [discriminate|]. injection Hs as <- <-. apply Q; [repeat constructor|]. split; cbn; auto; try discriminate. intros f [?|?]; discriminate.
  - destruct (nrt s) eqn:En; try discriminate. destruct (dosw s); [|discriminate]. injection Hs as <- <-. apply Q; [repeat constructor|]. split; cbn; auto; try discriminate. intros f [?|?]; discriminate.
Qed.

Lemma commits_good acts s tr : run init acts = Some (s, tr) -> commits_ok [] tr.
Proof.
  assert (X : forall acts s last s' e, CInv s last -> run s acts = Some (s', e) -> commits_ok last e).
  { clear. induction acts as [|a acts IH]; intros s last s' e HC Hr; simpl in Hr; [injection Hr as <- <-; exact I|].
    destruct (step s a) as [[s1 e1]|] eqn:Es; [|discriminate].
    destruct (run s1 acts) as [[s2 e2]|] eqn:Er; [|discriminate]. injection Hr as <- <-.
    destruct (cinv_step s last a s1 e1 HC Es) as [G1 G2].
    apply commits_app. split; [exact G1|]. eapply IH; eauto. }
  intros H2. eapply X; eauto. split; cbn; auto; try discriminate; try contradiction.
  - intros []; constructor.
  - intros [] i [].
  - intros f [?|?]; discriminate.
Qed.

(** ** freshness *)
Lemma committed_sp tr : forall l p w, fst (fst (sp_after (l, p, w) tr)) = committed l tr.
Proof. induction tr as [|e tr IH]; intros l p w; [reflexivity|]. unfold sp_after in *. destruct e; cbn [fold_left sp_step committed]; apply IH. Qed.
Lemma run_app a : forall s b s' e, run s (a ++ b) = Some (s', e) ->
  exists s1 e1 e2, run s a = Some (s1, e1) /\ run s1 b = Some (s', e2) /\ e = e1 ++ e2.
Proof.
  induction a as [|x a IH]; intros s b s' e H; cbn [app run] in *; [exists s, [], e; auto|].
  destruct (step s x) as [[s1 e1]|]; [|discriminate]. destruct (run s1 (a ++ b)) as [[s2 e2]|] eqn:E; [|discriminate]. injection H as <- <-.
  destruct (IH _ _ _ _ E) as (s3 & e3 & e4 & H1 & H2 & ->). rewrite H1. exists s3, (e1 ++ e3), e4. split; [reflexivity|]. split; [exact H2|]. now rewrite app_assoc.
Qed.
Lemma inv_run_pre acts : forall s x s' e post, Inv s x -> ros_up acts -> start_ok s (acts ++ post) -> run s acts = Some (s', e) ->
  Inv s' (sp_after x e) /\ start_ok s' post.
Proof.
  induction acts as [|a acts IH]; intros s x s' e post HI Hup Hst Hr; simpl in Hr.
  - injection Hr as <- <-. auto.
  - destruct (step s a) as [[s1 e1]|] eqn:Es; [|discriminate].
    destruct (run s1 acts) as [[s2 e2]|] eqn:Er; [|discriminate]. injection Hr as <- <-.
    inversion Hup as [|? ? Ha Hup']; subst.
    destruct (start_tail _ _ _ _ _ Hst Es) as [H1 H2].
    destruct (inv_step s x a s1 e1 HI Es) as [S1 I1]; auto.
    { intros ok1 ok2 ->. exact Ha. }
    destruct (IH s1 (sp_after x e1) s2 e2 post I1 Hup' H2 Er) as [I2 S2].
    split; [|exact S2]. unfold sp_after in *. rewrite fold_left_app. exact I2.
Qed.
(** Between reading the index and publishing it, the list is not touched. *)
Lemma loaded_step s x a s' e b : Inv s x -> rt s = RtLoaded b -> step s a = Some (s', e) -> (forall r, a <> APublish r) ->
  rt s' = RtLoaded b /\ lists s' b = lists s b.
Proof.
  intros HI R Hs Ha.
  assert (W : holds_free (nrt s) = true -> b = cur s).
  { intros H. destruct (i_load _ _ HI b R) as [->|U]; [reflexivity|]. exact (i_free _ _ HI b U H). }
  assert (O : forall c l, b = negb c -> lists (set_list s c l) b = lists s b) by (intros c l ->; rewrite lists_set; now destruct c).
  assert (O' : forall l, b = cur s -> lists (set_list s (negb (cur s)) l) b = lists s b) by (intros l E; apply O; now rewrite negb_involutive).
  destruct a; cbn [step] in Hs; rewrite ?R in Hs.
  - discriminate.
  - now destruct (Ha reset).
  - destruct (used s); discriminate.
  - discriminate.
  - destruct (nrt s); try discriminate. injection Hs as <- <-. auto.
  - destruct (nrt s); try discriminate; (destruct (match used s with Some _ => _ | None => false end); [destruct ok2|]); injection Hs as <- <-; auto.
  - destruct (nrt s) as [| |o ok| | | |] eqn:En; try discriminate. injection Hs as <- <-. split; [exact R|]. apply O', W. reflexivity.
  - destruct (nrt s) as [| |[|j] ok| | | |] eqn:En; try discriminate. destruct (inb _ _); [|discriminate]. destruct (flags s j); injection Hs as <- <-; (split; [exact R|]); [|reflexivity].
    apply O', W. reflexivity.
  - destruct (nrt s); try discriminate. injection Hs as <- <-. auto.
  - destruct (nrt s) as [| |[|j] [|]| | | |] eqn:En; try discriminate; injection Hs as <- <-; (split; [exact R|]); apply O', W; reflexivity.
  - destruct (nrt s); try discriminate. injection Hs as <- <-. split; [exact R | reflexivity].
  - destruct (nrt s) as [| | | | |f|] eqn:En; try discriminate. injection Hs as <- <-. split; [exact R|].
    assert (Ef : f = negb (cur s)) by (apply (i_former _ _ HI); auto). rewrite Ef. apply O', W. reflexivity.
  - destruct (nrt s); try discriminate. destruct (forallb _ _); [|discriminate]. injection Hs as <- <-. auto.
  - destruct (nrt s); try discriminate. destruct (dosw s); [discriminate|]. injection Hs as <- <-. auto.
  - destruct (nrt s); try discriminate. destruct (dosw s); [|discriminate]. injection Hs as <- <-. auto.
Qed.
Lemma loaded_run mid : forall s x s' e b post, Inv s x -> ros_up mid -> start_ok s (mid ++ post) -> rt s = RtLoaded b ->
  (forall r, ~ In (APublish r) mid) -> run s mid = Some (s', e) -> rt s' = RtLoaded b /\ lists s' b = lists s b.
Proof.
  induction mid as [|a mid IH]; intros s x s' e b post HI Hup Hst R N Hr; simpl in Hr; [injection Hr as <- <-; auto|].
  destruct (step s a) as [[s1 e1]|] eqn:Es; [|discriminate]. destruct (run s1 mid) as [[s2 e2]|] eqn:Er; [|discriminate]. injection Hr as <- <-.
  inversion Hup as [|? ? Ha Hup']; subst. destruct (start_tail _ _ _ _ _ Hst Es) as [H1 H2].
  destruct (inv_step s x a s1 e1 HI Es) as [S1 I1]; auto.
  { intros ok1 ok2 ->. exact Ha. }
  destruct (loaded_step s x a s1 e1 b HI R Es) as (R1 & L1); [intros r ->; apply (N r); now left|].
  destruct (IH s1 _ s2 e2 b post I1 Hup' H2 R1) as (R2 & L2); auto; [intros r H; apply (N r); now right|]. split; [exact R2 | congruence].
Qed.
Lemma fresh pre mid r s tr : ros_up (pre ++ ARead :: mid ++ [APublish r]) -> first_cycle_atomic (pre ++ ARead :: mid ++ [APublish r]) ->
  (forall r', ~ In (APublish r') mid) -> run init (pre ++ ARead :: mid ++ [APublish r]) = Some (s, tr) ->
  exists s1 tr1 e b, run init pre = Some (s1, tr1) /\ tr = tr1 ++ e ++ [EBegin b (committed [] tr1)].
Proof.
  intros U F N H. destruct (run_app _ _ _ _ _ H) as (s1 & tr1 & e2 & H1 & H2 & ->).
  pose proof U as U'. apply Forall_app in U'. destruct U' as (U1 & U2).
  destruct (inv_run_pre pre init ([], [], None) s1 tr1 (ARead :: mid ++ [APublish r]) inv_init U1 F H1) as (I1 & S1).
  cbn [run] in H2. destruct (step s1 ARead) as [[s2 e3]|] eqn:E2; [|discriminate].
  destruct (run s2 (mid ++ [APublish r])) as [[s3 e4]|] eqn:E3; [|discriminate]. injection H2 as -> <-.
  destruct (start_tail _ _ _ _ _ S1 E2) as (T1 & T2).
  destruct (inv_step s1 _ ARead s2 e3 I1 E2) as (_ & I2); [intros ? ? ?; discriminate | auto..|].
  pose proof E2 as E2'. cbn [step] in E2'. destruct (rt s1); try discriminate. injection E2' as Es <-.
  destruct (run_app _ _ _ _ _ E3) as (s4 & e5 & e6 & H3 & H4 & ->).
  inversion U2 as [|? ? _ U3]; subst. apply Forall_app in U3. destruct U3 as (U3 & _).
  destruct (loaded_run mid _ _ s4 e5 (cur s1) [APublish r] I2 U3 T2 eq_refl N H3) as (R4 & L4).
  cbn [run step] in H4. rewrite R4 in H4. injection H4 as <- <-.
  exists s1, tr1, e5, (cur s1). split; [exact H1|]. cbn [app]. rewrite L4. change (lists (set_rt s1 (RtLoaded (cur s1))) (cur s1)) with (lists s1 (cur s1)).
  rewrite (i_last _ _ I1), committed_sp. reflexivity.
Qed.
