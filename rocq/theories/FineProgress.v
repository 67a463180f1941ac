(** How far a service call has come, and what it can wait for. *)
From Verif Require Import HwTypes Lifecycle CMModel CMSpec CMInv CMCycle CMLife FineModel FineSpec FineAccess FineBase FineRel FineLoop FineManage FineLock FineSwitch FineMain FineFrame FineWait.

Lemma step_possible s o : R s o -> f_nrt s <> NIdle ->
  (exists s' l, f_step s = Some (s', l)) \/ (forall w ok1 ok2, exists s' l, f_poll w ok1 ok2 s = Some (s', l)).
Proof.
  intros HR Hn. assert (V := r_srv _ _ HR). unfold srv_rel in V. unfold f_step, f_poll.
  destruct (f_nrt s) as [|q|q|q k r e|n env e|sp e|p e|f e|f e|k acc| |q|sw tmo e|tmo e] eqn:P; try (now elim Hn).
  - right. intros. repeat match goal with |- context [if ?b then _ else _] => destruct b end; eauto.
  - left. unfold f_write. eauto.
  - left. unfold f_write. destruct q; try contradiction; destruct (nth_error _ _); eauto.
    + destruct (String.eqb _ _); eauto. destruct (is_running _ _); [destruct (f_refuse s e)|]; eauto.
    + destruct r; [|destruct (f_refuse s e)]; eauto.
  - left. destruct (existsb _ _); [destruct (f_refuse s e); eauto|]. destruct (negb (le_nh_ok env)); [eauto|].
    destruct (le_type env); [|destruct (f_refuse s e); eauto]. destruct (construct _ _ _) as [c ec]. destruct c; [|destruct (f_refuse s _); eauto].
    destruct (le_init env); cbn; eauto.
  - left. unfold f_write. eauto.
  - left. destruct p; eauto.
  - right. intros. repeat match goal with |- context [if ?b then _ else _] => destruct b end; eauto.
  - left. unfold f_write. eauto.
  - left. destruct (nth_error _ _); eauto.
  - left. eauto.
  - left. destruct V as (_ & V). destruct q; try discriminate V. cbv zeta. destruct (switch_begin _ _ _ _ _ _ _ _ _ _) as [[m1 e1] ok]. destruct ok; eauto.
  - left. eauto.
  - right. intros. repeat match goal with |- context [if ?b then _ else _] => destruct b end; eauto.
Qed.

(** Steps of the lock holder that took it further. *)
Definition rank (s : fst_) (n : nat) : Prop :=
  let c := List.length (f_list s (f_cur s)) in let f := List.length (f_list s (negb (f_cur s))) in
  match f_nrt s with
  | NIdle => True
  | NWait1 _ => (n <= 0)%nat
  | NClearTo _ => (n <= 1)%nat
  | NCopy _ k _ _ => (n <= 2 + k /\ k <= c)%nat
  | NMake _ _ _ => (n <= 3 + c)%nat
  | NAppend _ _ => (n <= 4 + c)%nat
  | NReady _ _ => (n <= 5 + c)%nat
  | NWait2 b _ => (n <= 6 + f)%nat
  | NClear b _ => (n <= 7 + f)%nat
  | NListing k _ => (n <= k /\ k <= c)%nat
  | NTypes => (n <= 0)%nat
  | NSw _ => (n <= 0)%nat
  | NHand _ _ _ => (n <= 1)%nat
  | NSwitch _ _ => (n <= 2)%nat
  end.
Definition lock_bound (s : fst_) : nat := (7 + List.length (f_l0 s) + List.length (f_l1 s))%nat.
Lemma len_cur s : (List.length (f_list s (f_cur s)) <= List.length (f_l0 s) + List.length (f_l1 s))%nat.
Proof. unfold f_list. destruct (f_cur s); lia. Qed.
Lemma len_free s : (List.length (f_list s (negb (f_cur s))) <= List.length (f_l0 s) + List.length (f_l1 s))%nat.
Proof. unfold f_list. destruct (f_cur s); cbn; lia. Qed.
Lemma rank_bound s n : f_nrt s <> NIdle -> rank s n -> (n <= lock_bound s)%nat.
Proof.
  intros H P. assert (A := len_cur s). assert (B := len_free s). unfold rank, lock_bound in *. destruct (f_nrt s); try lia. now elim H.
Qed.

Lemma rank_frame s s' n : f_nrt s' = f_nrt s -> f_cur s' = f_cur s -> (forall b, f_list s' b = f_list s b) -> rank s n -> rank s' n.
Proof. intros E1 E2 E3 P. unfold rank in *. rewrite E1, E2, !E3. exact P. Qed.

Lemma loop_never_writes s x : lock_only x = true -> ~ In (wr x) (loop_next s).
Proof.
  intros Hx H. unfold loop_next in H. destruct (f_rt s), x; try discriminate Hx; cbn in H;
    repeat (match type of H with
    | _ \/ _ => destruct H as [H|H] | False => destruct H | In _ (_ ++ _) => apply in_app_or in H
    | In _ (match ?u with _ => _ end) => destruct u | In _ (map _ _) => apply in_map_iff in H as (? & H & _) | In _ (_ :: _) => destruct H as [H|H] | In _ [] => destruct H
    | _ = _ => discriminate H end; cbn in H).
Qed.

Lemma rank_loop s a s' l n : by_lock a = false -> fine_step s a = Some (s', l) -> rank s n -> rank s' n.
Proof.
  intros Ha E. destruct (by_loop a) eqn:Hb.
  - assert (NW := loop_never_writes s).
    apply rank_frame.
    + exact (proj1 (loop_frame _ _ _ _ Cur Hb E (NW Cur eq_refl))).
    + exact (proj2 (loop_frame _ _ _ _ Cur Hb E (NW Cur eq_refl))).
    + intros b. exact (proj2 (loop_frame _ _ _ _ (Lst b) Hb E (NW (Lst b) eq_refl))).
  - destruct a; try discriminate Ha; try discriminate Hb. cbn [fine_step] in E. injection E as <- <-. auto.
Qed.

Lemma rank_write s b l p n : rank (f_set_nrt (fst (f_write s b l)) p) n = rank (f_set_nrt (f_set_list s b l) p) n.
Proof. reflexivity. Qed.
Lemma list_cur_write s l p : f_list (f_set_nrt (f_set_list s (negb (f_cur s)) l) p) (f_cur s) = f_list s (f_cur s).
Proof. unfold f_list, f_set_list. cbn. destruct (f_cur s); reflexivity. Qed.

Lemma rank_step s o s' l n : R s o -> f_step s = Some (s', l) -> rank s n -> f_nrt s' <> NIdle -> rank s' (S n).
Proof.
  intros HR E P Hn. assert (V := r_srv _ _ HR). unfold srv_rel in V. assert (B := r_bufs _ _ HR). destruct B as (_ & B & _). unfold f_step in E.
  assert (RF : forall t e t' l', Some (f_refuse t e) = Some (t', l') -> f_nrt t' <> NIdle -> False) by (intros t e t' l' X Y; injection X as <- <-; now apply Y).
  destruct (f_nrt s) as [|q|q|q k r e|nm env e|sp e|p e|f e|f e|k acc| |q|sw tmo e|tmo e] eqn:Pn; try discriminate E.
  - unfold f_write in E. injection E as <- <-. unfold rank in *. rewrite Pn in P. cbn. lia.
  - unfold f_write in E. unfold rank in P. rewrite Pn in P. destruct q; try contradiction; destruct (nth_error (f_list s (f_cur s)) k) as [sp|] eqn:En.
    + apply nth_some in En. injection E as <- <-. unfold rank. cbn [f_nrt f_set_nrt f_cur f_set_list]. rewrite list_cur_write. lia.
    + injection E as <- <-. unfold rank. cbn. change (f_list (f_set_nrt s _) (f_cur s)) with (f_list s (f_cur s)). lia.
    + apply nth_some in En. destruct (String.eqb _ _).
      * destruct (is_running _ _); injection E as <- <-; [now elim Hn|]. unfold rank. cbn. change (f_list (f_set_nrt s _) (f_cur s)) with (f_list s (f_cur s)). lia.
      * injection E as <- <-. unfold rank. cbn [f_nrt f_set_nrt f_cur f_set_list]. rewrite list_cur_write. lia.
    + destruct r; injection E as <- <-; [|now elim Hn]. unfold rank. cbn. change (f_list (f_set_nrt s _) (f_cur s)) with (f_list s (f_cur s)). lia.
  - unfold rank in P. rewrite Pn in P. destruct (existsb _ _); [destruct (RF _ _ _ _ E Hn)|].
    destruct (negb (le_nh_ok env)); [injection E as <- <-; now elim Hn|]. destruct (le_type env); [|destruct (RF _ _ _ _ E Hn)].
    destruct (construct _ _ _) as [c ec]. destruct c; [|destruct (RF _ _ _ _ E Hn)].
    destruct (le_init env); [|injection E as <- <-; now elim Hn|injection E as <- <-; now elim Hn].
    injection E as <- <-. unfold rank. cbn. change (f_list (f_set_nrt s _) (f_cur s)) with (f_list s (f_cur s)). lia.
  - unfold f_write in E. unfold rank in P. rewrite Pn in P. injection E as <- <-. unfold rank. cbn [f_nrt f_set_nrt f_cur f_set_list]. rewrite list_cur_write. lia.
  - unfold rank in P. rewrite Pn in P. destruct p; injection E as <- <-; unfold rank; cbn [f_nrt f_set_nrt f_cur f_set_cur f_set_m]; rewrite Bool.negb_involutive; change (f_list (f_set_nrt _ _) (f_cur s)) with (f_list s (f_cur s)); lia.
  - unfold f_write in E. injection E as <- <-. now elim Hn.
  - unfold rank in P. rewrite Pn in P. destruct (nth_error _ _) as [sp|] eqn:En; injection E as <- <-; [|now elim Hn]. apply nth_some in En.
    unfold rank. cbn. change (f_list (f_set_nrt s _) (f_cur s)) with (f_list s (f_cur s)). lia.
  - injection E as <- <-. now elim Hn.
  - unfold rank in P. rewrite Pn in P. destruct q; try discriminate E. cbv zeta in E. destruct (switch_begin _ _ _ _ _ _ _ _ _ _) as [[m1 e1] ok]. destruct ok; injection E as <- <-; [|now elim Hn].
    unfold rank. cbn. lia.
  - unfold rank in P. rewrite Pn in P. injection E as <- <-. unfold rank. cbn. lia.
Qed.

Lemma rank_poll w s o s' l n : R s o -> gives_up (f_nrt s) w = false -> f_poll w true true s = Some (s', l) -> rank s n -> f_nrt s' <> NIdle ->
  rank s' ((if waits s then 0 else 1) + n).
Proof.
  intros HR G E P Hn. assert (B := r_bufs _ _ HR). destruct B as (_ & B & _). unfold f_poll in E. unfold rank, waits in *. cbn [andb negb] in E.
  destruct (f_nrt s) as [|q| | | | | |f e| | | | | |tmo e] eqn:Pn; try discriminate E.
  - destruct (match f_used s with Some u => Bool.eqb (negb (f_cur s)) u | None => false end); injection E as <- <-; [rewrite Pn; exact P|]. cbn. lia.
  - destruct (match f_used s with Some u => Bool.eqb f u | None => false end); injection E as <- <-; [rewrite Pn; exact P|]. cbn.
    change (f_list (f_set_nrt s _) (negb (f_cur s))) with (f_list s (negb (f_cur s))). lia.
  - cbn [gives_up] in G. apply Bool.negb_false_iff in G. rewrite G in E. destruct (sw_do _); injection E as <- <-; [rewrite Pn; exact P|]. now elim Hn.
Qed.

(** A call that ends, returns. *)
Lemma call_ends s a s' l : by_lock a = true -> fine_step s a = Some (s', l) -> f_nrt s' = NIdle -> exists r e, In (SRet r e) l.
Proof.
  intros Ha E Hn. destruct a as [| | |q|w ok1 ok2| |]; try discriminate Ha; cbn [fine_step] in E.
  - destruct (f_nrt s); try discriminate E. destruct (f_entry q) as [p|] eqn:Eq; [|discriminate E]. injection E as <- <-. cbn in Hn. subst p. destruct q; discriminate Eq.
  - unfold f_poll in E. destruct (f_nrt s) eqn:Pn; try discriminate E; repeat match type of E with context [if ?b then _ else _] => destruct b end; injection E as <- <-; cbn in Hn; try congruence; cbn; eauto.
  - assert (RF : forall t e s' l, Some (f_refuse t e) = Some (s', l) -> exists r e', In (SRet r e') l).
    { intros t e0 t' l' X. injection X as <- <-. eexists _, _. apply in_or_app. right. left. reflexivity. }
    unfold f_step in E. destruct (f_nrt s) as [|q|q|q k r e|nm env e|sp e|p e|f e|f e|k acc| |q|sw tmo e|tmo e] eqn:Pn; try discriminate E;
      repeat match type of E with
      | context [match nth_error ?a ?b with _ => _ end] => destruct (nth_error a b)
      | context [match ?q with Load _ _ => _ | _ => _ end] => destruct q
      | context [if ?b then _ else _] => destruct b
      | context [match le_type ?e with _ => _ end] => destruct (le_type e)
      | context [match le_init ?e with _ => _ end] => destruct (le_init e)
      | context [let (_, _) := construct ?a ?b ?c in _] => destruct (construct a b c)
      | context [match ?p with Some _ => _ | None => _ end] => destruct p
      | context [let (_, _) := f_write ?a ?b ?c in _] => unfold f_write in E
      | context [switch_begin ?a ?b ?c ?d ?e ?f ?g ?h ?i ?j] => destruct (switch_begin a b c d e f g h i j) as [[] ok]; destruct ok
      end; try discriminate E; try (eapply RF; exact E); injection E as <- <-; try discriminate Hn; try (eexists _, _; cbn; auto; fail); eexists _, _; apply in_or_app; right; left; reflexivity.
Qed.

Lemma rank_run acts : forall s o s' tr n, R s o -> calm s acts -> fine_run s acts = Some (s', tr) -> f_nrt s <> NIdle -> rank s n ->
  (forall r e, ~ In (SRet r e) tr) -> f_nrt s' <> NIdle /\ rank s' (n + lock_moves s acts).
Proof.
  induction acts as [|a acts IH]; intros s o s' tr n HR C E Hi P Hn; unfold calm in C; cbn [throughout fine_run lock_moves] in *.
  - injection E as <- <-. split; [exact Hi|]. now rewrite Nat.add_0_r.
  - destruct C as (U & T & C & K). apply andb_prop in U as [U1 U2]. apply andb_prop in T as [T1 T2]. apply andb_prop in C as [C1 C2]. apply andb_prop in K as [K1 K2].
    destruct (fine_step s a) as [[s1 e1]|] eqn:E1; [|discriminate E].
    destruct (fine_run s1 acts) as [[s2 e2]|] eqn:E2; [|discriminate E]. injection E as <- <-.
    destruct (simulation _ _ _ _ _ HR U1 T1 C1 K1 E1) as (o1 & _ & R1).
    assert (Hn2 : forall r e, ~ In (SRet r e) e2) by (intros r e H; apply (Hn r e), in_or_app; now right).
    assert (Hi1 : f_nrt s1 <> NIdle).
    { intros X. destruct (by_lock a) eqn:Hb.
      - destruct (call_ends _ _ _ _ Hb E1 X) as (r & e & H). apply (Hn r e), in_or_app. now left.
      - apply Hi. rewrite <- X. destruct (by_loop a) eqn:Hl.
        + symmetry. exact (proj1 (loop_frame _ _ _ _ Loaders Hl E1 (loop_never_writes s Loaders eq_refl))).
        + destruct a; try discriminate Hl; try discriminate Hb. cbn [fine_step] in E1. now injection E1 as <- <-. }
    specialize (fun m => IH s1 o1 s2 e2 m R1 (conj U2 (conj T2 (conj C2 K2))) E2 Hi1).
    assert (Q : rank s1 (match a with FStep => 1 | FPoll _ _ _ => if waits s then 0 else 1 | _ => 0 end + n)%nat).
    { destruct a as [| | |q|w ok1 ok2| |]; try (eapply rank_loop; [|exact E1|exact P]; reflexivity); cbn [fine_step] in E1.
      - exfalso. destruct (f_nrt s); try discriminate E1. now elim Hi.
      - apply andb_prop in U1 as [-> ->]. apply Bool.negb_true_iff in T1. exact (rank_poll _ _ _ _ _ _ HR T1 E1 P Hi1).
      - exact (rank_step _ _ _ _ _ HR E1 P Hi1). }
    destruct (IH _ Q Hn2) as [A B]. split; [exact A|]. revert B. match goal with |- rank _ ?x -> rank _ ?y => replace y with x by lia end. auto.
Qed.
