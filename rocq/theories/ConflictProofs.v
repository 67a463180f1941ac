(** The default conflict check reports a conflict exactly when some resource
    occurs twice among all claims. *)
From Coq Require Import Lia.
From Verif Require Import HwTypes SMap SMapProofs ConflictModel.

(** All claimed resource names, controller by controller, interface by interface. *)
Definition all_claims (infos : list cinfo) : list string :=
  flat_map (fun c => flat_map ir_res (ci_claims c)) infos.

Definition sem (m : smap (list cinfo)) (r : string) : nat :=
  match sfind r m with None => 0 | Some l => length l end.

Lemma push_claim_sem m r c r' :
  sem (push_claim m r c) r' = sem m r' + (if String.eqb r r' then 1 else 0).
Proof.
  unfold push_claim, sem.
  destruct (sfind r m) eqn:E; rewrite sfind_sset, (String.eqb_sym r r');
  destruct (String.eqb_spec r' r); subst; rewrite ?E, ?app_length; simpl; lia.
Qed.

Lemma push_claim_sorted m r c : ssorted m -> ssorted (push_claim m r c).
Proof. unfold push_claim; destruct (sfind r m); apply sset_sorted. Qed.

Definition cnt (l : list string) (r : string) : nat := count_occ string_dec l r.
Arguments cnt : simpl never.

Lemma cnt_cons x l r : cnt (x :: l) r = (if String.eqb x r then 1 else 0) + cnt l r.
Proof.
  unfold cnt; simpl. destruct (string_dec x r), (String.eqb_spec x r); congruence || reflexivity.
Qed.

Lemma cnt_app l1 l2 r : cnt (l1 ++ l2) r = cnt l1 r + cnt l2 r.
Proof. apply count_occ_app. Qed.

Lemma add_resources_spec c ir m :
  ssorted m ->
  ssorted (add_resources c m ir) /\
  forall r, sem (add_resources c m ir) r = sem m r + cnt (ir_res ir) r.
Proof.
  unfold add_resources. generalize (ir_res ir) as l; intros l.
  revert m; induction l as [|x l IH]; intros m Hs; simpl.
  - split; [assumption|]. intros r; unfold cnt; simpl; lia.
  - destruct (IH _ (push_claim_sorted m x c Hs)) as [H1 H2]. split; [exact H1|].
    intros r; rewrite H2, push_claim_sem, cnt_cons; lia.
Qed.

Lemma add_controller_spec c m :
  ssorted m ->
  ssorted (add_controller m c) /\
  forall r, sem (add_controller m c) r = sem m r + cnt (flat_map ir_res (ci_claims c)) r.
Proof.
  unfold add_controller. generalize (ci_claims c) as l; intros l.
  revert m; induction l as [|x l IH]; intros m Hs; simpl.
  - split; [assumption|]. intros r; unfold cnt; simpl; lia.
  - destruct (add_resources_spec c x m Hs) as [H1 H2].
    destruct (IH _ H1) as [H3 H4]. split; [exact H3|].
    intros r; rewrite H4, H2, cnt_app; lia.
Qed.

Lemma add_all_spec infos m :
  ssorted m ->
  ssorted (fold_left add_controller infos m) /\
  forall r, sem (fold_left add_controller infos m) r = sem m r + cnt (all_claims infos) r.
Proof.
  revert m; induction infos as [|x l IH]; intros m Hs; simpl.
  - split; [assumption|]. intros r; unfold cnt; simpl; lia.
  - destruct (add_controller_spec x m Hs) as [H1 H2].
    destruct (IH _ H1) as [H3 H4]. split; [exact H3|].
    intros r; rewrite H4, H2. unfold all_claims; simpl; rewrite cnt_app; unfold all_claims; lia.
Qed.

Lemma conflict_iff infos : check_for_conflict infos = false <-> NoDup (all_claims infos).
Proof.
  unfold check_for_conflict.
  destruct (add_all_spec infos [] (@sset_nil_sorted (list cinfo))) as [Hs Hsem].
  set (m := fold_left add_controller infos []) in *.
  rewrite (NoDup_count_occ string_dec). fold (cnt (all_claims infos)).
  split; intros H.
  - intros r. specialize (Hsem r). unfold sem in Hsem at 2; simpl in Hsem.
    fold (cnt (all_claims infos) r). rewrite <- (Nat.add_0_l (cnt _ _)), <- Hsem. unfold sem.
    destruct (sfind r m) eqn:E; [|lia].
    apply sfind_in in E; [|assumption].
    destruct (Nat.leb_spec (length l) 1); [assumption|].
    exfalso. assert (existsb (fun rc : string * list cinfo => Nat.ltb 1 (length (snd rc))) m = true); [|congruence].
    apply existsb_exists. exists (r, l). split; [assumption|]. apply Nat.ltb_lt; simpl; lia.
  - destruct (existsb _ m) eqn:E; [|reflexivity].
    exfalso. apply existsb_exists in E as [[r l] [Hin Hlen]]. apply Nat.ltb_lt in Hlen; simpl in Hlen.
    apply sfind_in in Hin; [|assumption].
    specialize (H r). specialize (Hsem r). unfold sem in Hsem. rewrite Hin in Hsem. simpl in Hsem.
    unfold cnt in Hsem. lia.
Qed.

(** Consequence used by the manager: distinct members share no resource. *)
Definition claims (c : cinfo) (r : string) : Prop :=
  exists ir, In ir (ci_claims c) /\ In r (ir_res ir).

Lemma claims_in c r : claims c r <-> In r (flat_map ir_res (ci_claims c)).
Proof. unfold claims. rewrite in_flat_map. reflexivity. Qed.

Lemma nodup_app_disjoint {A} (l1 l2 : list A) x : NoDup (l1 ++ l2) -> In x l1 -> In x l2 -> False.
Proof.
  induction l1 as [|y l1 IH]; simpl; [tauto|]. intros H [->|Hx] Hx2.
  - inversion H as [|? ? Hn ?]; subst. apply Hn, in_or_app; auto.
  - inversion H; subst; eauto.
Qed.

Lemma nodup_app_r {A} (l1 l2 : list A) : NoDup (l1 ++ l2) -> NoDup l2.
Proof. induction l1; simpl; [auto|]. inversion 1; auto. Qed.

Lemma nodup_flat_disjoint {A B} (f : A -> list B) l1 a l2 b l3 r :
  NoDup (flat_map f (l1 ++ a :: l2 ++ b :: l3)) -> In r (f a) -> In r (f b) -> False.
Proof.
  rewrite flat_map_app; simpl; rewrite flat_map_app; simpl. intros H Ha Hb.
  apply nodup_app_r in H.
  eapply nodup_app_disjoint; [exact H|exact Ha|].
  apply in_or_app; right; apply in_or_app; left; exact Hb.
Qed.
