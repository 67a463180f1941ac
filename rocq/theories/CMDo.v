(** Every doSwitch() receives the lists of an earlier prepareSwitch(). *)
From Coq Require Import List ZArith Bool.
From Verif Require Import HwTypes Lifecycle ConflictModel CMModel CMSpec CMTrace CMHooks CMLoad.
Import ListNotations.

(** Where an event of the trace comes from. *)
Lemma event_from ls ops e : In e (trace ls ops) ->
  exists ops0 o rest, ops = ops0 ++ o :: rest /\ In e (emits ls ops0 o).
Proof.
  induction ops as [|o ops IH] using rev_ind.
  - intros [].
  - rewrite trace_snoc, in_app_iff. intros [H|H].
    + destruct (IH H) as (p & o' & r & E & H'). subst ops. exists p, o', (r ++ [o]).
      split; auto. rewrite <- app_assoc. reflexivity.
    + exists ops, o, []. auto.
Qed.

Lemma do_prepared b tr : forall h x y post pre, hooks_ok b h tr -> tr = pre ++ EvDo x y :: post ->
  h = HPrepared x y \/ In (EvPrepare x y true) pre.
Proof.
  induction tr as [|e tr IH]; intros h x y post pre H E.
  - destruct pre; discriminate.
  - destruct pre as [|e' pre]; simpl in E; injection E as E1 E2.
    + subst e. simpl in H. destruct H as [H _]. auto.
    + subst e'. assert (K : forall h', hooks_ok b h' tr -> h' = HPrepared x y \/ In (EvPrepare x y true) (e :: pre)).
      { intros h' H'. destruct (IH h' x y post pre H' E2); simpl; auto. }
      simpl in H.
      destruct e as [j c t|j info|j|a d ok|a d|k|k]; try (apply K; exact H).
      * destruct c; try (apply K; exact H); apply (K _ (proj2 H)).
      * destruct ok; destruct (K _ H) as [D|D]; auto; try discriminate D.
        injection D as -> ->. right; simpl; auto.
      * destruct (K _ (proj2 H)) as [D|D]; [discriminate D|auto].
Qed.
