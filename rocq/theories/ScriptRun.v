(** A particular execution of a script, for the examples: loads use [envs], the switch requests are
    prepared by the elements of [prs] in turn, and one control cycle follows each accepted request. *)
From Coq Require Import Lia.
From Verif Require Import HwTypes Lifecycle CMModel CMSpec ConflictModel CMFinal ScriptModel ScriptSpec.
Local Open Scope list_scope.

Section Drive.
  Variables (ls : list loader) (envs : string -> load_env).

  Fixpoint drive {R} (prs : list (list cinfo -> list cinfo -> bool)) (h : list op) (p : script R) : option (list op * R) :=
    let pr := hd agree prs in
    let cy := Cycle 200 1 false hwD in
    let po := Poll 0 true true in
    match cm_call (reach ls h) with
    | Idle =>
      match p with
      | Ret r => Some (h, r)
      | CLoad n k => match reply ls h (Load n (envs n)) with ABool b => drive prs (h ++ [Load n (envs n)]) (k b) | _ => None end
      | CUnload n k => match reply ls h (Unload n) with ABool b => drive prs (h ++ [Unload n]) (k b) | _ => None end
      | CList k => match reply ls h ListControllers with AList l => drive prs (h ++ [ListControllers]) (k l) | _ => None end
      | CSwitch a b z k =>
          let sw := Switch a b z false 0 100 check_for_conflict pr in
          match reply ls h sw with
          | ABool false => drive (tl prs) (h ++ [sw]) (k false)
          | ANone =>
              match reply ls (h ++ [sw]) cy, reply ls ((h ++ [sw]) ++ [cy]) po with
              | ANone, ABool x => drive (tl prs) (((h ++ [sw]) ++ [cy]) ++ [po]) (k x)
              | _, _ => None
              end
          | _ => None
          end
      | CReload force k =>
          let rl := Reload force 100 check_for_conflict pr in
          match reply ls h rl with
          | ABool b => drive (tl prs) (h ++ [rl]) (k b)
          | ANone =>
              match reply ls (h ++ [rl]) cy, reply ls ((h ++ [rl]) ++ [cy]) po with
              | ANone, ABool x => drive (tl prs) (((h ++ [rl]) ++ [cy]) ++ [po]) (k x)
              | _, _ => None
              end
          | _ => None
          end
      end
    | _ => None
    end.

  Lemma hwD_never_fails : ~ may_fail hwD.
  Proof. unfold may_fail. cbn. intros [H|H]; firstorder discriminate. Qed.

  Lemma drive_sound {R} (p : script R) : forall prs h h' r, drive prs h p = Some (h', r) -> executes alone ls h p h' (Some r).
  Proof.
    assert (W : forall o, reply ls o (Cycle 200 1 false hwD) = ANone -> still_waiting ls o [Cycle 200 1 false hwD]).
    { intros o H. unfold still_waiting. cbn [no_reply]. split; [left; exact H | exact I]. }
    assert (A : Forall alone [Cycle 200 1 false hwD]) by (constructor; [exact hwD_never_fails | constructor]).
    assert (B : alone (Poll 0 true true)) by (split; reflexivity).
    induction p as [x|n k IH|n k IH|a b z k IH|k IH|fo k IH]; intros prs h h' r E; cbn [drive] in E;
      (destruct (cm_call (reach ls h)) eqn:Ci; [|discriminate E]); assert (I : idle ls h) by exact Ci.
    - injection E as <- <-. constructor.
    - destruct (reply _ _ _) eqn:Er; try discriminate E. eapply ex_load; eauto.
    - destruct (reply _ _ _) eqn:Er; try discriminate E. eapply ex_unload; eauto.
    - destruct (reply ls h _) as [| |[|]| | |] eqn:Er in E; try discriminate E.
      + destruct (reply ls (h ++ _) _) eqn:Er2 in E; try discriminate E. destruct (reply ls ((h ++ _) ++ _) _) eqn:Er3 in E; try discriminate E.
        eapply ex_switch; eauto.
      + eapply ex_switch_refused; eauto.
    - destruct (reply _ _ _) eqn:Er; try discriminate E. eapply ex_list; eauto.
    - destruct (reply ls h _) eqn:Er in E; try discriminate E.
      + destruct (reply ls (h ++ _) _) eqn:Er2 in E; try discriminate E. destruct (reply ls ((h ++ _) ++ _) _) eqn:Er3 in E; try discriminate E.
        eapply ex_reload; eauto.
      + eapply ex_reload_now; eauto.
  Qed.
End Drive.

Definition ends {R} (o : option (list op * R)) : list op := match o with Some x => fst x | None => [] end.
Lemma drive_ends {R} ls envs prs h (p : script R) r : option_map snd (drive ls envs prs h p) = Some r ->
  executes alone ls h p (ends (drive ls envs prs h p)) (Some r).
Proof.
  destruct (drive ls envs prs h p) as [[h' r']|] eqn:E; cbn; intros X; [injection X as <- | discriminate X]. eapply drive_sound; eauto.
Qed.

(** With no element in [prs] the hardware prepares every switch. *)
Lemma drive_agrees {R} ls envs (p : script R) : forall h h' r, drive ls envs [] h p = Some (h', r) ->
  checks_with check_for_conflict h /\ agreeing h -> checks_with check_for_conflict h' /\ agreeing h'.
Proof.
  assert (S : forall h o, checks_with check_for_conflict [o] /\ agreeing [o] -> checks_with check_for_conflict h /\ agreeing h ->
              checks_with check_for_conflict (h ++ [o]) /\ agreeing (h ++ [o])).
  { unfold checks_with, agreeing. intros h o [A B] [C D]. split; apply Forall_app; auto. }
  assert (T : forall o, match o with Switch _ _ _ _ _ _ ck pr | Reload _ _ ck pr => ck = check_for_conflict /\ pr = agree | _ => True end ->
              checks_with check_for_conflict [o] /\ agreeing [o]).
  { intros o H. split; constructor; try constructor; destruct o; try exact I; destruct H as [-> ->]; reflexivity. }
  induction p as [x|n k IH|n k IH|a b z k IH|k IH|fo k IH]; intros h h' r E G; cbn [drive] in E;
    (destruct (cm_call (reach ls h)) eqn:Ci; [|discriminate E]); cbn [hd tl] in E.
  - injection E as <- <-. exact G.
  - destruct (reply _ _ _); try discriminate E. eapply IH; [exact E|]. apply S; [now apply T | exact G].
  - destruct (reply _ _ _); try discriminate E. eapply IH; [exact E|]. apply S; [now apply T | exact G].
  - destruct (reply ls h _) as [| |[|]| | |] in E; try discriminate E.
    + destruct (reply ls (h ++ _) _) in E; try discriminate E. destruct (reply ls ((h ++ _) ++ _) _) in E; try discriminate E.
      eapply IH; [exact E|]. repeat (apply S; [now apply T|]). exact G.
    + eapply IH; [exact E|]. apply S; [now apply T | exact G].
  - destruct (reply _ _ _); try discriminate E. eapply IH; [exact E|]. apply S; [now apply T | exact G].
  - destruct (reply ls h _) in E; try discriminate E.
    + destruct (reply ls (h ++ _) _) in E; try discriminate E. destruct (reply ls ((h ++ _) ++ _) _) in E; try discriminate E.
      eapply IH; [exact E|]. repeat (apply S; [now apply T|]). exact G.
    + eapply IH; [exact E|]. apply S; [now apply T | exact G].
Qed.
Lemma drive_plain {R} ls envs h (p : script R) r : checks_with check_for_conflict h /\ agreeing h -> option_map snd (drive ls envs [] h p) = Some r ->
  let h' := ends (drive ls envs [] h p) in Forall (fun c => claims_once (snd c)) (loads (trace ls h')) -> plain ls h'.
Proof.
  intros G. destruct (drive ls envs [] h p) as [[h' r']|] eqn:E; cbn; intros X; [|discriminate X]. intros O.
  destruct (drive_agrees ls envs p _ _ _ E G). split; [assumption|]. split; [assumption|]. now apply Forall_forall.
Qed.
