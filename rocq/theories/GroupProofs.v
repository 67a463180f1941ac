(** Proofs about the tool `controller_group`. *)
From Coq Require Import Permutation Lia.
From Verif Require Import HwTypes Lifecycle CMModel CMSpec CMLoad CMFinal ScriptModel ScriptSpec ScriptProofs ScriptMain UtilsModel UtilsSpec UtilsProofs CliModel CliProofs GroupModel GroupSpec.
Local Open Scope list_scope.

Lemma members_in gs x : NoDup (map fst gs) -> In x gs -> members gs (fst x) = snd x.
Proof.
  unfold members. induction gs as [|y gs IH]; [intros _ []|]. cbn [map find]. intros N H. inversion N as [|? ? N1 N2]; subst.
  destruct (String.eqb_spec (fst y) (fst x)) as [E|E].
  - destruct H as [->|H]; [reflexivity|]. exfalso. apply N1. rewrite E. now apply in_map.
  - destruct H as [->|H]; [contradiction | auto].
Qed.

Lemma groups_listing gs : NoDup (map fst gs) ->
  exists l, Permutation l gs /\ ordered (map fst l) /\ say_groups gs = Count (length gs) :: listing l.
Proof.
  intros N. exists (map (fun g => (g, members gs g)) (sorted (map fst gs))). split; [|split].
  - rewrite sorted_perm, map_map. rewrite (map_ext_in _ (fun x => x)); [now rewrite map_id|]. intros x Hx. rewrite (members_in gs x N Hx). now destruct x.
  - rewrite map_map. cbn [fst]. rewrite map_id. apply sorted_ordered.
  - unfold say_groups, listing. rewrite flat_map_concat_map, flat_map_concat_map, map_map. reflexivity.
Qed.

Section Group.
  Variable (ls : list loader).
  Local Notation runs_to h p h' r := (executes alone ls h p h' (Some r)).

  Definition news (d : list (string * bool)) (desired : list string) : list string := filter (fun n => negb (dict_in n d)) desired.
  Definition idles (d : list (string * bool)) (desired : list string) : list string := filter (fun n => negb (dict_get n d)) desired.

  Lemma say_group_load_inv d desired : forall h ts tst h' out, runs_to h (say_group_load d desired ts tst) h' out -> calm ls h ->
    exists res, runs_to h (group_load d desired ts tst) h' res /\
    match res with
    | NoGroup => False
    | Cancelled => exists l m post, news d desired = l ++ m :: post /\ out = loaded_lines l ++ [Says (LoadError m); CancelSwitch] /\
                     board ls h' = board ls h ++ fresh l /\ (In m (names (board ls h')) \/ load_refused ls h h' m)
    | Switched ok => out = loaded_lines (news d desired) ++ (if ok then obeyed_lines (ts ++ idles d desired) tst else [Says (SwitchError (ts ++ idles d desired) tst)])
    end.
  Proof.
    induction desired as [|n desired IH]; intros h ts tst h' out E C; cbn [say_group_load group_load] in *.
    - apply print_inv in E as (o & -> & E). unfold say_switch, start_stop_controllers in E.
      change (runs_to h (bind (CSwitch ts tst STRICT (fun ok => Ret ok)) (fun ok : bool => Ret ((if ok then (if ts then [] else [Started ts]) ++ (if tst then [] else [Stopped tst]) else [SwitchError ts tst])))) h' o) in E.
      apply print_inv in E as (ok & -> & E). exists (Switched ok). split.
      + change (runs_to h (bind (CSwitch ts tst STRICT (fun ok => Ret ok)) (fun ok => Ret (Switched ok))) h' (Switched ok)).
        eapply bind_exec; [exact E|]. constructor.
      + cbn [news idles filter loaded_lines map app]. rewrite app_nil_r. unfold obeyed_lines. destruct ok, ts, tst; reflexivity.
    - assert (EA : (if dict_get n d then ts else ts ++ [n]) ++ idles d desired = ts ++ idles d (n :: desired)).
      { unfold idles. cbn [filter]. destruct (dict_get n d); cbn [negb]; [reflexivity|]. now rewrite <- app_assoc. }
      destruct (dict_in n d) eqn:Dn.
      + assert (EF : news d (n :: desired) = news d desired) by (unfold news; cbn [filter]; now rewrite Dn).
        destruct (IH _ _ _ _ _ E C) as (res & X & Y). exists res. split; [exact X|]. rewrite EF, <- EA. exact Y.
      + assert (EF : news d (n :: desired) = n :: news d desired) by (unfold news; cbn [filter]; now rewrite Dn).
        set (k := fun ok : bool => if ok then bind _ _ else _) in E. change (runs_to h (bind (CLoad n (fun b => Ret b)) k) h' out) in E.
        apply bind_inv in E as (h1 & b & E1 & E2). pose proof (executes_app ls _ _ _ _ _ E1) as P1. pose proof E1 as EL.
        apply load_inv in E1 as (h0 & b0 & C0 & B0 & _ & R0 & P0 & E1); [|exact C]. pose proof (executes_app ls _ _ _ _ _ E1) as P3.
        apply ret_inv in E1 as (-> & C1 & B1); [|exact C0].
        set (k2 := fun ok : bool => if ok then group_load _ _ _ _ else _).
        assert (K : forall r, runs_to h1 (k2 b0) h' r -> runs_to h (CLoad n k2) h' r).
        { intros r X. change (runs_to h (bind (CLoad n (fun b => Ret b)) k2) h' r). eapply bind_exec; [exact EL | exact X]. }
        pose proof (executes_app ls _ _ _ _ _ E2) as P2. subst k. destruct b0; cbv beta iota in E2.
        * apply print_inv in E2 as (o & -> & E2). destruct (IH _ _ _ _ _ E2 C1) as (res & X & Y). exists res. split; [apply K; exact X|].
          destruct res as [| |ok]; [exact Y| |].
          -- destruct Y as (l & m & post & S & -> & B & Z). exists (n :: l), m, post. rewrite EF. split; [cbn; now rewrite S|]. split; [reflexivity|].
             split; [rewrite B, B1, B0, <- app_assoc; reflexivity|]. destruct Z as [Z|Z]; [now left | right; eapply load_refused_later; [exact P1 | exact Z]].
          -- rewrite EF, <- EA. subst o. reflexivity.
        * destruct (ret_then ls alone (S := group_result) _ _ _ _ E2) as [-> KR]. apply ret_inv in E2 as (_ & C2 & B2); [|exact C1].
          exists Cancelled. split; [apply K, KR; constructor|]. exists [], n, (news d desired). rewrite EF. split; [reflexivity|]. split; [reflexivity|].
          rewrite B2, B1, B0, !app_nil_r. split; [reflexivity|].
          destruct (R0 eq_refl) as [Z|Z]; [now left | right]. eapply load_refused_earlier; [exact P2|]. eapply load_refused_earlier; [exact P3 | exact Z].
  Qed.

  Lemma unknown_board l b : map (fun e => (en_name e, en_state e)) l = map (fun x => (fst x, phase_string (snd x))) b ->
    unknown_states l = map UnknownState (filter (fun s => negb (String.eqb s "running" || String.eqb s "stopped")) (map (fun x => phase_string (snd x)) b)).
  Proof.
    intros E. assert (E2 : map en_state l = map (fun x => phase_string (snd x)) b).
    { apply (f_equal (map snd)) in E. rewrite !map_map in E. exact E. }
    rewrite <- E2. clear. unfold unknown_states. induction l as [|e l IH]; [reflexivity|]. cbn [map filter]. destruct (negb _); cbn [map]; now rewrite IH.
  Qed.

  Lemma say_switch_group_inv order gs g h h' out : enumerates order -> NoDup (map fst gs) ->
    runs_to h (say_switch_group order gs g) h' out -> calm ls h ->
    exists res odd out', runs_to h (switch_group order gs g) h' res /\ out = map UnknownState odd ++ out' /\
      ((exists n, in_group gs g n) -> odd = filter (fun s => negb (String.eqb s "running" || String.eqb s "stopped")) (map (fun x => phase_string (snd x)) (board ls h))) /\
      ((forall n, ~ in_group gs g n) -> odd = []) /\
      group_says gs g (board ls h) (board ls h') (objection ls h h') (load_refused ls h h') res out'.
  Proof.
    intros HO HG E C. unfold say_switch_group, switch_group in *. pose proof (read_group_spec gs g HG) as RG. destruct (read_group gs g) as [[desired others]|].
    2:{ destruct (ret_then ls alone (S := group_result) _ _ _ _ E) as [-> K]. exists NoGroup, [], [EmptyGroup g].
        split; [apply K; constructor|]. split; [reflexivity|]. split; [intros (n & Hn); destruct (RG n Hn)|]. split; reflexivity. }
    destruct RG as (RD & RO & ND & NE).
    set (k := fun l : list lc_entry => _) in E. change (runs_to h (bind (CList (fun l => Ret l)) k) h' out) in E.
    apply bind_inv in E as (h1 & l & E1 & E2). pose proof E1 as EL.
    apply list_inv in E1 as (h0 & l0 & C0 & B0 & L & P0 & E1); [|exact C]. pose proof (executes_app ls _ _ _ _ _ E1) as P1'. apply ret_inv in E1 as (-> & C1 & B1); [|exact C0].
    assert (P1 : exists t, h1 = h ++ t) by (destruct P0 as [t ->], P1' as [t' ->]; eexists; rewrite <- app_assoc; reflexivity).
    subst k. cbv beta zeta in E2. apply print_inv in E2 as (o & -> & E2).
    rewrite (listing_dict _ _ L) in E2. pose proof (executes_app ls _ _ _ _ _ E2) as P2.
    set (d := map (fun x => (fst x, started (snd x))) (board ls h)) in *.
    destruct (say_group_load_inv _ _ _ _ _ _ _ E2 C1) as (res & X & Y). rewrite B1, B0 in Y.
    exists res, (filter (fun s => negb (String.eqb s "running" || String.eqb s "stopped")) (map (fun x => phase_string (snd x)) (board ls h))), o. split.
    { set (k2 := fun l : list lc_entry => _). change (runs_to h (bind (CList (fun l => Ret l)) k2) h' res). eapply bind_exec; [exact EL|].
      subst k2. cbv beta zeta. rewrite (listing_dict _ _ L). exact X. }
    split; [now rewrite (unknown_board _ _ L)|]. split; [reflexivity|].
    split; [intros Hn; exfalso; destruct desired as [|n0 desired]; [now apply NE | exact (Hn n0 (proj1 (RD n0) (or_introl eq_refl)))]|].
    assert (OD : forall n, In n (order desired) <-> in_group gs g n).
    { intros n. rewrite <- RD. split; apply Permutation_in; [symmetry|]; apply HO. }
    assert (OO : forall n, In n (order others) <-> in_any_group gs n /\ ~ in_group gs g n).
    { intros n. rewrite <- RO. split; apply Permutation_in; [symmetry|]; apply HO. }
    assert (NL : forall n, In n (news d (order desired)) <-> in_group gs g n /\ ~ In n (names (board ls h))).
    { intros n. unfold news. rewrite filter_In, OD, negb_true_iff. unfold d. rewrite <- dict_in_spec. destruct (dict_in n _); intuition congruence. }
    assert (NS : to_be_started gs g (board ls h) (idles d (order desired))).
    { intros n. unfold idles. rewrite filter_In, OD, negb_true_iff. unfold d. rewrite <- dict_get_spec by apply board_names. destruct (dict_get n _); intuition congruence. }
    assert (NT : to_be_stopped gs g (board ls h) (filter (fun n => dict_get n d) (order others))).
    { intros n. rewrite filter_In, OO. unfold d. rewrite dict_get_spec by apply board_names. tauto. }
    apply group_load_inv in X as [C2 X]; [|exact C1]. rewrite B1, B0 in X. fold (news d (order desired)) in X. fold (idles d (order desired)) in X.
    destruct res as [| |ok]; [destruct Y| |].
    - destruct Y as (l2 & m & post & S & -> & B & Z). exists l2, m. split; [reflexivity|]. split; [exact B|].
      assert (NDD : NoDup (l2 ++ m :: post)) by (rewrite <- S; apply NoDup_filter; eapply Permutation_NoDup; [apply HO | exact ND]).
      assert (Hm : In m (news d (order desired))) by (rewrite S; apply in_app_iff; right; now left).
      apply NL in Hm as [M1 M2]. split; [exact M1|]. assert (Mb : ~ In m (names (board ls h'))).
      { rewrite B, names_app, names_fresh, in_app_iff. intros [Q|Q]; [contradiction|]. apply NoDup_remove_2 in NDD. apply NDD, in_app_iff. now left. }
      split; [exact Mb|]. destruct Z as [Z|Z]; [contradiction | eapply load_refused_later; [exact P1 | exact Z]].
    - cbv zeta in X. cbn [app] in *. destruct X as (B & _ & _ & O). destruct ok.
      + exists (news d (order desired)), (idles d (order desired)), (filter (fun n => dict_get n d) (order others)). auto.
      + exists (news d (order desired)), (idles d (order desired)), (filter (fun n => dict_get n d) (order others)).
        repeat (split; [assumption|]). apply (objection_later ls _ _ h h1 h'); auto. apply O; [reflexivity|]. split.
        * intros n Hn. apply NS in Hn as [Hg Hr]. split.
          -- rewrite names_app, names_fresh, in_app_iff. destruct (in_dec string_dec n (names (board ls h))) as [I|I]; [now left|right]. now apply NL.
          -- unfold running. rewrite in_app_iff. intros [Q|Q]; [contradiction|]. unfold fresh in Q. apply in_map_iff in Q as (m & Em & _). discriminate Em.
        * intros n Hn. apply NT in Hn as (_ & _ & R). unfold running. apply in_app_iff. now left.
  Qed.
End Group.
