(** Proofs about utils.py. *)
From Coq Require Import Ascii Sorted Permutation Lia.
From Verif Require Import SMap SMapProofs UtilsModel UtilsSpec.
Local Open Scope string_scope.
Local Open Scope list_scope.

(** ** strings *)
Lemma sapp_nil_r s : (s ++ "")%string = s.
Proof. induction s; cbn; congruence. Qed.
Lemma sapp_assoc a b c : ((a ++ b) ++ c)%string = (a ++ b ++ c)%string.
Proof. induction a; cbn; congruence. Qed.
Lemma slen_app a b : String.length (a ++ b) = (String.length a + String.length b)%nat.
Proof. induction a; cbn; congruence. Qed.
Lemma sapp_inv_head a b c : (a ++ b)%string = (a ++ c)%string -> b = c.
Proof. induction a; cbn; auto. intros H. injection H. auto. Qed.
Lemma chars_app a b : chars (a ++ b) = chars a ++ chars b.
Proof. induction a; cbn; congruence. Qed.

Lemma prefix_spec a s : prefix a s = true <-> exists b, s = (a ++ b)%string.
Proof.
  revert s. induction a as [|c a IH]; intros s.
  - split; [intros _; exists s; reflexivity | intros _; destruct s; reflexivity].
  - destruct s as [|d s]; [split; [discriminate | intros [b E]; discriminate E]|]. cbn.
    destruct (ascii_dec c d) as [->|Hne].
    + rewrite IH. cbn. split; intros [b E]; exists b; [congruence | injection E; auto].
    + split; [discriminate|]. intros [b E]. injection E. congruence.
Qed.
Lemma contains_spec sub s : contains sub s = true <-> occurs sub s.
Proof.
  unfold occurs. induction s as [|c s IH]; cbn [contains]; rewrite orb_true_iff, prefix_spec.
  - split; [intros [[b E]|E]; [exists "", b; exact E | discriminate E]|]. intros (a & b & E). left. destruct a; [exists b; exact E | discriminate E].
  - rewrite IH. split.
    + intros [[b E]|(a & b & E)]; [exists "", b; exact E|]. exists (String c a), b. cbn. now rewrite E.
    + intros (a & b & E). destruct a as [|d a]; cbn in E; [left; exists b; exact E|]. right. injection E as _ E. eauto.
Qed.

Lemma substring_after a b : substring (String.length a) (String.length (a ++ b) - String.length a) (a ++ b) = b.
Proof.
  rewrite slen_app. replace (String.length a + String.length b - String.length a)%nat with (String.length b) by lia.
  induction a as [|c a IH]; cbn; [|exact IH]. induction b; cbn; congruence.
Qed.

Lemma split1_prefix sep b : split1 sep (sep ++ b) = Some ("", b).
Proof.
  assert (P : prefix sep (sep ++ b) = true) by (apply prefix_spec; eauto).
  assert (E : forall s, prefix sep s = true -> split1 sep s = Some ("", substring (String.length sep) (String.length s - String.length sep) s))
    by (intros [|? ?] X; cbn [split1]; now rewrite X).
  rewrite E by exact P. now rewrite substring_after.
Qed.
Lemma split1_next sep c s a b : prefix sep (String c s) = false -> split1 sep s = Some (a, b) -> split1 sep (String c s) = Some (String c a, b).
Proof. intros P E. cbn [split1]. now rewrite P, E. Qed.
Lemma split1_occurs sep s a b : split1 sep s = Some (a, b) -> s = (a ++ sep ++ b)%string.
Proof.
  revert a. induction s as [|c s IH]; intros a E.
  - destruct (prefix sep "") eqn:P.
    + apply prefix_spec in P as [r Er]. rewrite Er, split1_prefix in E. injection E as <- <-. exact Er.
    + cbn [split1] in E. rewrite P in E. discriminate E.
  - destruct (prefix sep (String c s)) eqn:P.
    + apply prefix_spec in P as [r Er]. rewrite Er, split1_prefix in E. injection E as <- <-. exact Er.
    + cbn [split1] in E. rewrite P in E. destruct (split1 sep s) as [[x y]|]; [|discriminate]. injection E as <- <-. cbn. now rewrite <- (IH x eq_refl).
Qed.
Lemma split1_none sep s : split1 sep s = None -> contains sep s = false.
Proof.
  induction s as [|c s IH]; cbn [split1 contains]; destruct (prefix sep _) eqn:P; try discriminate; cbn [orb]; [reflexivity|].
  destruct (split1 sep s) as [[? ?]|]; [discriminate|]. auto.
Qed.

Lemma ends_slash_spec s : ends_slash s = true <-> ends_with_slash s.
Proof.
  unfold ends_with_slash. induction s as [|c s IH]; cbn [ends_slash].
  - split; [discriminate|]. intros [r E]. destruct r; discriminate E.
  - destruct s as [|d s].
    + rewrite Ascii.eqb_eq. split; [intros ->; exists ""; reflexivity|]. intros [r E]. destruct r as [|x r]; cbn in E; [injection E; auto|]. injection E as _ E. destruct r; discriminate E.
    + rewrite IH. split.
      * intros [r E]. exists (String c r). cbn. now rewrite E.
      * intros [r E]. destruct r as [|x r]; cbn in E; [discriminate E|]. injection E as _ E. eauto.
Qed.

(** ** sorting *)
Lemma scompare_flip a b : String.compare a b = Gt -> String.compare b a = Lt.
Proof. apply scompare_gt. Qed.
Lemma ord_trans a b c : String.compare a b <> Gt -> String.compare b c <> Gt -> String.compare a c <> Gt.
Proof.
  intros H1 H2 H3. destruct (String.compare a b) eqn:E1; [| |congruence].
  - apply scompare_eq in E1. subst. congruence.
  - destruct (String.compare b c) eqn:E2; [| |congruence].
    + apply scompare_eq in E2. subst. congruence.
    + pose proof (slt_trans a b c E1 E2) as X. unfold slt in X. congruence.
Qed.
Lemma insert_perm s l : Permutation (insert s l) (s :: l).
Proof.
  induction l as [|x l IH]; cbn [insert]; [reflexivity|]. destruct (String.compare s x); try reflexivity. rewrite IH. apply perm_swap.
Qed.
Lemma insert_ordered s l : ordered l -> ordered (insert s l).
Proof.
  unfold ordered. induction l as [|x l IH]; intros H; cbn [insert]; [repeat constructor|].
  inversion H as [|? ? H1 H2]; subst. destruct (String.compare s x) eqn:E.
  - constructor; [exact H|]. constructor; [congruence|]. eapply Forall_impl; [|exact H2]. cbn. intros y Hy. eapply ord_trans; [|exact Hy]. congruence.
  - constructor; [exact H|]. constructor; [congruence|]. eapply Forall_impl; [|exact H2]. cbn. intros y Hy. eapply ord_trans; [|exact Hy]. congruence.
  - constructor; [auto|]. eapply Permutation_Forall; [symmetry; apply insert_perm|]. constructor; [|exact H2]. apply scompare_flip in E. congruence.
Qed.
Lemma sorted_perm l : Permutation (sorted l) l.
Proof. induction l as [|x l IH]; cbn; [reflexivity|]. rewrite insert_perm. now constructor. Qed.
Lemma sorted_ordered l : ordered (sorted l).
Proof. induction l as [|x l IH]; cbn; [constructor | now apply insert_ordered]. Qed.
Lemma ordered_unique l l' : ordered l -> ordered l' -> Permutation l l' -> l = l'.
Proof.
  unfold ordered. revert l'. induction l as [|x l IH]; intros l' H H' P.
  - apply Permutation_nil in P. now subst.
  - destruct l' as [|y l']; [symmetry in P; apply Permutation_nil in P; discriminate P|].
    inversion H as [|? ? H1 H2]; inversion H' as [|? ? H1' H2']; subst.
    assert (E : x = y).
    { assert (X : In x (y :: l')) by (eapply Permutation_in; [exact P | now left]). assert (Y : In y (x :: l)) by (eapply Permutation_in; [symmetry; exact P | now left]).
      destruct X as [->|X]; [reflexivity|]. destruct Y as [->|Y]; [reflexivity|]. rewrite Forall_forall in H2, H2'.
      specialize (H2 y Y). specialize (H2' x X). cbn in *. destruct (String.compare x y) eqn:E; [now apply scompare_eq| |congruence].
      exfalso. destruct (String.compare y x) eqn:E2; [apply scompare_eq in E2; subst; rewrite scompare_refl in E; discriminate| |congruence].
      apply (slt_irrefl x). eapply slt_trans; [exact E | exact E2]. }
    subst y. f_equal. apply IH; auto. eapply Permutation_cons_inv; exact P.
Qed.
Lemma sorted_same l l' : Permutation l l' -> sorted l = sorted l'.
Proof. intros P. apply ordered_unique; try apply sorted_ordered. now rewrite !sorted_perm. Qed.

(** ** filters *)
Lemma selection_filter {A} (f : A -> bool) (P : A -> Prop) l : (forall x, f x = true <-> P x) -> selection P l (filter f l).
Proof.
  intros H. induction l as [|x l IH]; cbn; [constructor|]. destruct (f x) eqn:E; [apply sel_take | apply sel_drop]; auto; [now apply H|].
  intros X. apply H in X. congruence.
Qed.
Lemma fold_filter {A} (f : A -> bool) l : forall out, fold_left (fun out c => if f c then out ++ [c] else out) l out = out ++ filter f l.
Proof.
  induction l as [|x l IH]; intros out; cbn; [now rewrite app_nil_r|]. rewrite IH. destruct (f x); [now rewrite <- app_assoc | reflexivity].
Qed.
Lemma attr_select l attr v : selection (fun c => attr c = v) l (filter_by_attr l attr v false) /\
  selection (fun c => occurs v (attr c)) l (filter_by_attr l attr v true).
Proof.
  unfold filter_by_attr. rewrite !fold_filter. cbn [app]. split; apply selection_filter; intros c; [apply String.eqb_eq | apply contains_spec].
Qed.
Lemma interface_hit_spec sets hi (m : bool) :
  interface_hit sets hi m = true <-> exists rs, In rs sets /\ if m then occurs hi (ir_iface rs) else ir_iface rs = hi.
Proof.
  induction sets as [|rs sets IH]; cbn [interface_hit]; [split; [discriminate | intros (? & [] & _)]|].
  destruct m.
  - destruct (contains hi (ir_iface rs)) eqn:E.
    + split; [intros _ | auto]. exists rs. split; [now left|]. now apply contains_spec.
    + rewrite IH. split; [intros (x & H1 & H2); exists x; split; [now right | exact H2]|]. intros (x & [->|H1] & H2); [|eauto].
      apply contains_spec in H2. congruence.
  - destruct (String.eqb_spec (ir_iface rs) hi) as [E|E].
    + split; [intros _ | auto]. exists rs. split; [now left | exact E].
    + rewrite IH. split; [intros (x & H1 & H2); exists x; split; [now right | exact H2]|]. intros (x & [->|H1] & H2); [contradiction | eauto].
Qed.
Lemma hi_select l hi (m : bool) : selection (fun c => exists rs, In rs (en_claims c) /\ if m then occurs hi (ir_iface rs) else ir_iface rs = hi) l
  (filter_by_hardware_interface l hi m).
Proof.
  unfold filter_by_hardware_interface. rewrite fold_filter. cbn [app]. apply selection_filter. intros c. apply interface_hit_spec.
Qed.

Lemma resource_loop_spec resources claimed m : forall add, resources <> [] ->
  exists b, resource_loop resources claimed m add = Some b /\
    (b = true <-> if m then exists r, In r resources /\ In r claimed else forall r, In r resources -> In r claimed).
Proof.
  assert (M : forall r, existsb (String.eqb r) claimed = true <-> In r claimed).
  { intros r. rewrite existsb_exists. split; [intros (x & H & E); apply String.eqb_eq in E; now subst | intros H; exists r; split; [exact H | apply String.eqb_refl]]. }
  induction resources as [|r rs IH]; intros add Hne; [congruence|]. cbn [resource_loop].
  destruct (existsb (String.eqb r) claimed) eqn:E.
  - apply M in E. destruct m; cbn [negb].
    + exists true. split; [reflexivity|]. split; [intros _; exists r; split; [now left | exact E] | auto].
    + destruct rs as [|r2 rs].
      * cbn. exists true. split; [reflexivity|]. split; [intros _ x [<-|[]]; exact E | auto].
      * destruct (IH (Some true)) as (b & E1 & E2); [discriminate|]. exists b. split; [exact E1|]. rewrite E2. split.
        -- intros H x [<-|H2]; auto.
        -- intros H x H2. apply H. now right.
  - assert (N : ~ In r claimed) by (intros X; apply M in X; congruence). destruct m; cbn [negb].
    + destruct rs as [|r2 rs].
      * cbn. exists false. split; [reflexivity|]. split; [discriminate | intros (x & [<-|[]] & H); contradiction].
      * destruct (IH (Some false)) as (b & E1 & E2); [discriminate|]. exists b. split; [exact E1|]. rewrite E2. split.
        -- intros (x & H1 & H2). exists x. split; [now right | exact H2].
        -- intros (x & [<-|H1] & H2); [contradiction | eauto].
    + exists false. split; [reflexivity|]. split; [discriminate | intros H; exfalso; apply N, H; now left].
Qed.
Lemma hi_test hi (rs : iface_res) : (match hi with None => true | Some i => String.eqb i (ir_iface rs) end) = true <-> (forall i, hi = Some i -> ir_iface rs = i).
Proof.
  destruct hi as [i|]; [|split; [discriminate | auto]]. rewrite String.eqb_eq. split; [intros -> j E; congruence | intros H; symmetry; auto].
Qed.
Lemma set_loop_spec resources hi m : resources <> [] -> forall sets add, exists add' hit, set_loop sets resources hi m add = Some (add', hit) /\
  (hit = true <-> exists rs, In rs sets /\ matches_set resources hi m rs).
Proof.
  intros Hne. induction sets as [|rs sets IH]; intros add; cbn [set_loop].
  - exists add, false. split; [reflexivity|]. split; [discriminate | intros (? & [] & _)].
  - pose proof (hi_test hi rs) as HT. destruct (match hi with None => true | Some i => String.eqb i (ir_iface rs) end).
    + destruct (resource_loop_spec resources (ir_res rs) m add Hne) as (b & E1 & E2). rewrite E1. destruct b.
      * exists (Some true), true. split; [reflexivity|]. split; [intros _ | auto]. exists rs. split; [now left|]. split; [now apply HT | now apply E2].
      * destruct (IH (Some false)) as (a & hit & F1 & F2). exists a, hit. split; [exact F1|]. rewrite F2. split.
        -- intros (x & H1 & H2). exists x. split; [now right | exact H2].
        -- intros (x & [<-|H1] & H2); [|eauto]. destruct H2 as [_ H2]. apply E2 in H2. discriminate H2.
    + destruct (IH add) as (a & hit & F1 & F2). exists a, hit. split; [exact F1|]. rewrite F2. split.
      * intros (x & H1 & H2). exists x. split; [now right | exact H2].
      * intros (x & [<-|H1] & H2); [|eauto]. destruct H2 as [H2 _]. apply HT in H2. discriminate H2.
Qed.
Lemma resources_select resources hi m l : resources <> [] ->
  exists out, filter_by_resources l resources hi m = Some out /\ selection (matches_resources resources hi m) l out.
Proof.
  intros Hne. unfold filter_by_resources.
  assert (G : forall add out, exists s, ctrl_loop l resources hi m add out = Some (out ++ s) /\ selection (matches_resources resources hi m) l s).
  { induction l as [|c l IH]; intros add out; cbn [ctrl_loop]; [exists []; rewrite app_nil_r; split; [reflexivity | constructor]|].
    destruct (set_loop_spec resources hi m Hne (en_claims c) add) as (a & hit & E1 & E2). rewrite E1.
    destruct (IH a (if hit then out ++ [c] else out)) as (s & F1 & F2). destruct hit.
    - exists (c :: s). rewrite F1, <- app_assoc. split; [reflexivity|]. apply sel_take; [|exact F2]. apply E2. reflexivity.
    - exists s. rewrite F1. split; [reflexivity|]. apply sel_drop; [|exact F2]. intros X. apply E2 in X. discriminate X. }
  destruct (G None []) as (s & E & S). exists s. auto.
Qed.
Lemma resources_empty hi m l :
  filter_by_resources l [] hi m = if existsb (fun c => existsb (fun rs => match hi with None => true | Some i => String.eqb i (ir_iface rs) end) (en_claims c)) l
                                  then None else Some [].
Proof.
  unfold filter_by_resources.
  assert (S : forall sets, set_loop sets [] hi m None = if existsb (fun rs => match hi with None => true | Some i => String.eqb i (ir_iface rs) end) sets then None else Some (None, false)).
  { induction sets as [|rs sets IH]; cbn; [reflexivity|]. destruct (match hi with None => true | Some i => String.eqb i (ir_iface rs) end); cbn; [reflexivity | exact IH]. }
  induction l as [|c l IH]; cbn; [reflexivity|]. rewrite S. destruct (existsb _ (en_claims c)); cbn; [reflexivity | exact IH].
Qed.

(** ** parameters *)
Lemma split_slash_spec s : exists p ps, split_slash s = p :: ps /\ no_slash p /\
  s = (p ++ fold_right (fun q r => "/" ++ q ++ r) "" ps)%string /\ Forall no_slash ps.
Proof.
  induction s as [|c s IH]; cbn [split_slash].
  - exists "", []. repeat split; auto. intros [].
  - destruct IH as (p & ps & E & N & S & F). destruct (Ascii.eqb_spec c slash) as [->|Hc].
    + exists "", (p :: ps). rewrite E. split; [reflexivity|]. split; [intros []|]. split; [rewrite S at 1; reflexivity | now constructor].
    + rewrite E. exists (String c p), ps. split; [reflexivity|]. split; [|split; [rewrite S at 1; reflexivity | exact F]].
      cbn. intros [X|X]; [apply Hc; exact X | contradiction].
Qed.
Lemma split_slash_plain p : no_slash p -> split_slash p = [p].
Proof.
  unfold no_slash. induction p as [|c p IH]; cbn; [reflexivity|]. intros N. destruct (Ascii.eqb_spec c slash) as [->|Hc]; [exfalso; apply N; now left|].
  rewrite IH; auto.
Qed.
Lemma split_slash_app p s : no_slash p -> split_slash (p ++ "/" ++ s) = p :: split_slash s.
Proof.
  unfold no_slash. induction p as [|c p IH]; cbn; [reflexivity|]. intros N. destruct (Ascii.eqb_spec c slash) as [->|Hc]; [exfalso; apply N; now left|].
  cbn in IH. rewrite IH; auto.
Qed.
Lemma split_slash_two s n t : split_slash s = [n; t] <-> s = (n ++ "/" ++ t)%string /\ no_slash n /\ no_slash t.
Proof.
  split.
  - intros E. destruct (split_slash_spec s) as (p & ps & E2 & N & S & F). rewrite E in E2. injection E2 as <- <-. cbn in S. rewrite sapp_nil_r in S.
    inversion F; subst. auto.
  - intros (-> & N1 & N2). rewrite split_slash_app by exact N1. now rewrite split_slash_plain.
Qed.
Lemma no_slash_type : no_slash "type".
Proof. cbn. unfold no_slash. cbn. intuition discriminate. Qed.

Lemma add_slash_ends s : ends_with_slash (add_slash s).
Proof. unfold add_slash. destruct (ends_slash s) eqn:E; [now apply ends_slash_spec | now exists s]. Qed.
Lemma starts_cons c s : starts_with_slash (String c s) <-> c = slash.
Proof. unfold starts_with_slash. split; [intros [r E]; now injection E | intros ->; now exists s]. Qed.

Lemma global_ns_spec ns : global_prefix ns (make_global_ns ns).
Proof.
  unfold global_prefix, make_global_ns. destruct ns as [|c ns].
  - cbn. split; [exists ""; reflexivity|]. split; [exists ""; reflexivity|]. right. left. split; [intros [r E]; discriminate E | reflexivity].
  - destruct (Ascii.eqb_spec c slash) as [->|Hc]; unfold add_slash.
    + destruct (ends_slash (String slash ns)) eqn:E.
      * apply ends_slash_spec in E. split; [now exists ns|]. split; [exact E|]. now left.
      * assert (N : ~ ends_with_slash (String slash ns)) by (intros X; apply ends_slash_spec in X; congruence).
        split; [now exists (ns ++ "/")%string|]. split; [now exists (String slash ns)|]. right. right. left. auto.
    + assert (NS : ~ starts_with_slash (String c ns)) by (rewrite starts_cons; exact Hc).
      change (ends_slash ("/" ++ String c ns)) with (ends_slash (String c ns)). destruct (ends_slash (String c ns)) eqn:E.
      * apply ends_slash_spec in E as E'. split; [now exists (String c ns)|]. split; [destruct E' as [r ->]; exists ("/" ++ r)%string; reflexivity|].
        right. left. auto.
      * assert (N : ~ ends_with_slash (String c ns)) by (intros X; apply ends_slash_spec in X; congruence).
        split; [exists (String c ns ++ "/")%string; reflexivity|]. split; [exists ("/" ++ String c ns)%string; reflexivity|].
        right. right. right. repeat split; auto; discriminate.
Qed.
Lemma global_unique ns g g' : global_prefix ns g -> global_prefix ns g' -> g = g'.
Proof.
  assert (SN : ~ starts_with_slash "") by (intros [r E]; discriminate E).
  assert (EA : forall s, ends_with_slash (s ++ "/")) by (intros s; now exists s).
  assert (EC : forall s, s <> "" -> (ends_with_slash ("/" ++ s) <-> ends_with_slash s)).
  { intros s Hs. rewrite <- !ends_slash_spec. destruct s; [congruence | reflexivity]. }
  assert (SA : forall s, s <> "" -> (starts_with_slash (s ++ "/") <-> starts_with_slash s)).
  { intros s Hs. destruct s as [|c s]; [congruence|]. cbn [append]. rewrite !starts_cons. reflexivity. }
  intros (A1 & A2 & A3) (B1 & B2 & B3).
  destruct (string_dec ns "") as [->|Hne].
  - destruct A3 as [->|[[_ ->]|[[_ ->]|(_ & _ & X & _)]]]; try congruence; try contradiction;
      destruct B3 as [->|[[_ ->]|[[_ ->]|(_ & _ & X & _)]]]; first [reflexivity | contradiction | congruence].
  - pose proof (EC ns Hne) as EC1. pose proof (SA ns Hne) as SA1.
    assert (EC2 : ends_with_slash ("/" ++ ns ++ "/")) by (now exists ("/" ++ ns)%string).
    destruct A3 as [->|[[? ->]|[[? ->]|(? & ? & ? & ->)]]]; destruct B3 as [->|[[? ->]|[[? ->]|(? & ? & ? & ->)]]]; try reflexivity; try tauto.
Qed.
Lemma global_split ns r : split1 (add_slash ns) (make_global_ns ns ++ r) = Some (if match ns with String c _ => Ascii.eqb c slash | EmptyString => true end then "" else "/", r).
Proof.
  unfold make_global_ns. destruct ns as [|c ns].
  - exact (split1_prefix "/" r).
  - destruct (Ascii.eqb_spec c slash) as [->|Hc]; [apply split1_prefix|].
    assert (E : add_slash ("/" ++ String c ns) = String slash (add_slash (String c ns))).
    { unfold add_slash. change (ends_slash ("/" ++ String c ns)) with (ends_slash (String c ns)). destruct (ends_slash (String c ns)); reflexivity. }
    rewrite E. cbn [append]. apply split1_next; [|apply split1_prefix].
    assert (F : exists q, add_slash (String c ns) = String c q) by (unfold add_slash; destruct (ends_slash _); [now exists ns | now exists (ns ++ "/")%string]).
    destruct F as [q ->]. cbn [prefix]. destruct (ascii_dec c "/"%char); [contradiction | reflexivity].
Qed.

Lemma param_loop_spec ns l : (forall p, In p l -> exists r, p = (make_global_ns ns ++ r)%string) -> forall out,
  exists s, param_loop l (add_slash ns) out = Some (out ++ s) /\
    (forall n, In n s <-> no_slash n /\ In (make_global_ns ns ++ n ++ "/type")%string l) /\ (NoDup l -> NoDup s).
Proof.
  intros H. induction l as [|p l IH]; intros out; cbn [param_loop].
  - exists []. rewrite app_nil_r. split; [reflexivity|]. split; [|constructor]. intros n. cbn. tauto.
  - destruct (H p (or_introl eq_refl)) as [r ->]. rewrite global_split.
    assert (IH' := IH (fun p Hp => H p (or_intror Hp))). clear IH.
    assert (C : (exists n, split_slash r = [n; "type"]) \/ ~ (exists n, split_slash r = [n; "type"]) /\
                match split_slash r with [n; t] => param_loop l (add_slash ns) (if String.eqb t "type" then out ++ [n] else out) | _ => param_loop l (add_slash ns) out end = param_loop l (add_slash ns) out).
    { destruct (split_slash r) as [|n [|t [|x ps]]]; try (right; split; [intros [m E]; discriminate E | reflexivity]).
      destruct (String.eqb_spec t "type") as [->|Ht]; [left; now exists n|]. right. split; [intros [m E]; injection E; congruence | reflexivity]. }
    destruct C as [[n En]|[Nn ->]].
    + rewrite En, String.eqb_refl. destruct (IH' (out ++ [n])) as (s & E & I & D).
      apply split_slash_two in En as (Er & N1 & _). exists (n :: s). split; [rewrite E, <- app_assoc; reflexivity|].
      assert (Inj : forall m, (make_global_ns ns ++ m ++ "/type")%string = (make_global_ns ns ++ r)%string -> no_slash m -> m = n).
      { intros m Em Nm. apply sapp_inv_head in Em. rewrite Er in Em.
        assert (X : split_slash (m ++ "/type") = split_slash (n ++ "/type")) by (f_equal; exact Em).
        rewrite !(split_slash_app _ "type") in X by assumption. injection X. auto. }
      split.
      * intros m. cbn [In]. rewrite I. split.
        -- intros [<-|[X Y]]; [|auto]. split; [exact N1|]. left. rewrite Er. reflexivity.
        -- intros [X [Y|Y]]; [left; symmetry; now apply Inj | auto].
      * intros ND. inversion ND; subst. constructor; [|auto]. intros X. apply I in X as [_ X]. contradiction.
    + destruct (IH' out) as (s & E & I & D). exists s. split; [exact E|]. split.
      * intros m. rewrite I. cbn [In]. split; [tauto|]. intros [X [Y|Y]]; [|auto]. exfalso. apply Nn. exists m. apply sapp_inv_head in Y.
        apply split_slash_two. split; [exact Y|]. split; [exact X | apply no_slash_type].
      * intros ND. inversion ND. auto.
Qed.

Lemma param_names params ns : exists l, get_rosparam_controller_names params ns = Some l /\ ordered l /\
  (forall n, In n l <-> no_slash n /\ In (make_global_ns ns ++ n ++ "/type")%string params) /\ (NoDup params -> NoDup l).
Proof.
  unfold get_rosparam_controller_names.
  destruct (param_loop_spec ns (filter (prefix (make_global_ns ns)) (sorted params))) with (out := @nil string) as (s & E & I & D).
  { intros p Hp. apply filter_In in Hp as [_ Hp]. now apply prefix_spec. }
  rewrite E. cbn [option_map app]. exists (sorted s). split; [reflexivity|]. split; [apply sorted_ordered|]. split.
  - intros n. transitivity (In n s); [split; apply Permutation_in; [|symmetry]; apply sorted_perm|]. rewrite I, filter_In.
    split; intros [X Y]; (split; [exact X|]).
    + destruct Y as [Y _]. eapply Permutation_in; [apply sorted_perm | exact Y].
    + split; [eapply Permutation_in; [symmetry; apply sorted_perm | exact Y]|]. apply prefix_spec. eauto.
  - intros ND. eapply Permutation_NoDup; [symmetry; apply sorted_perm|]. apply D. apply NoDup_filter. eapply Permutation_NoDup; [symmetry; apply sorted_perm | exact ND].
Qed.

(** ** managers *)
Lemma sapp_split a b c d : (a ++ b)%string = (c ++ d)%string ->
  (exists e, c = (a ++ e)%string /\ b = (e ++ d)%string) \/ (exists x e, a = (c ++ String x e)%string /\ d = (String x e ++ b)%string).
Proof.
  revert c. induction a as [|x a IH]; intros c H; cbn in H; [left; exists c; auto|].
  destruct c as [|y c]; cbn in H; [right; exists x, a; auto|]. injection H as <- H. destruct (IH c H) as [(e & -> & ->)|(z & e & -> & ->)]; [left; exists e; auto | right; exists z, e; auto].
Qed.
Lemma split1_at w m t : no_slash w -> ~ occurs ("/" ++ w) m -> split1 ("/" ++ w) (m ++ ("/" ++ w) ++ t) = Some (m, t).
Proof.
  intros Nw. induction m as [|c m IH]; intros Nm; [exact (split1_prefix ("/" ++ w) t)|].
  change ((String c m ++ ("/" ++ w) ++ t)%string) with (String c (m ++ ("/" ++ w) ++ t)). apply split1_next.
  - destruct (prefix _ _) eqn:P; [|reflexivity]. exfalso. apply prefix_spec in P as [r Er].
    change (String c (m ++ ("/" ++ w) ++ t))%string with (String c m ++ ("/" ++ w) ++ t)%string in Er.
    destruct (sapp_split _ _ _ _ Er) as [(e & E1 & E2)|(x & e & E1 & E2)].
    + (* the occurrence reaches beyond the namespace: it would contain a second slash *)
      assert (X : exists q e', ("/" ++ w)%string = (String c m ++ e)%string /\ e = String q e' \/ e = "" /\ occurs ("/" ++ w) (String c m)).
      { destruct e as [|q e']; [exists "/"%char, ""; right; split; [reflexivity|]; exists "", ""; now rewrite E1, !sapp_nil_r | exists q, e'; auto]. }
      destruct X as (q & e' & [[_ ->]|[_ X]]); [|contradiction]. cbn in E1, E2. injection E1 as _ E1. injection E2 as <- _.
      apply Nw. rewrite E1, chars_app. apply in_or_app. right. now left.
    + apply Nm. exists "", (String x e). exact E1.
  - apply IH. intros (a & b & E). apply Nm. exists (String c a), b. cbn. now rewrite E.
Qed.
Lemma split1_first c0 sep s a b : split1 (String c0 sep) s = Some (a, b) -> ~ occurs (String c0 sep) a.
Proof.
  intros E. rewrite <- contains_spec. revert a E. induction s as [|c s IH]; intros a E.
  - cbn in E. discriminate E.
  - destruct (prefix (String c0 sep) (String c s)) eqn:P.
    + apply prefix_spec in P as [r Er]. rewrite Er, split1_prefix in E. injection E as <- <-. discriminate.
    + pose proof (split1_occurs _ _ _ _ E) as Es. cbn [split1] in E. rewrite P in E. destruct (split1 (String c0 sep) s) as [[x y]|]; [|discriminate].
      injection E as <- <-. change (contains (String c0 sep) (String c x)) with (prefix (String c0 sep) (String c x) || contains (String c0 sep) x).
      rewrite orb_true_iff. intros [X|X]; [|exact (IH x eq_refl X)]. apply prefix_spec in X as [r Er].
      assert (Y : prefix (String c0 sep) (String c s) = true); [|congruence]. apply prefix_spec. exists (r ++ String c0 sep ++ y)%string.
      rewrite Es, Er. apply sapp_assoc.
Qed.
Lemma no_slash_lc : no_slash "list_controllers".
Proof. unfold no_slash. cbn. intuition discriminate. Qed.

Definition ns_of (s : string) : string := match split1 "/list_controllers" s with Some ("", _) => "/" | Some (ns, _) => ns | None => s end.
Lemma sloppy_map l : sloppy_get_controller_managers (Some l) = map ns_of (filter (contains "/list_controllers") l).
Proof.
  unfold sloppy_get_controller_managers.
  assert (G : forall out, fold_left (fun out s => if contains "/list_controllers" s then out ++ [ns_of s] else out) l out = out ++ map ns_of (filter (contains "/list_controllers") l)).
  { induction l as [|s l IH]; intros out; cbn [fold_left filter]; [cbn; now rewrite app_nil_r|]. rewrite IH. destruct (contains _ s); [cbn; now rewrite <- app_assoc | reflexivity]. }
  exact (G []).
Qed.
Lemma shows_ns s m : shows s m <-> contains "/list_controllers" s = true /\ ns_of s = m.
Proof.
  unfold shows, ns_of. split.
  - intros (a & t & -> & N & M). split; [apply contains_spec; exists a, t; reflexivity|].
    pose proof (split1_at "list_controllers" a t no_slash_lc N) as E. cbn [append] in E |- *. rewrite E.
    destruct M as [[Ha ->]|[-> ->]]; [destruct a; congruence | reflexivity].
  - intros [C <-]. destruct (split1 "/list_controllers" s) as [[a t]|] eqn:E.
    + exists a, t. split; [now apply split1_occurs|]. split; [now apply split1_first in E|]. destruct a; [right | left]; split; auto; discriminate.
    + apply split1_none in E. congruence.
Qed.
Lemma sloppy_in srvs m : In m (sloppy_get_controller_managers srvs) <-> listed_ns srvs m.
Proof.
  unfold listed_ns. destruct srvs as [l|]; [|split; [intros [] | intros (l & s & E & _); discriminate E]].
  rewrite sloppy_map, in_map_iff. split.
  - intros (s & E & H). apply filter_In in H as [H1 H2]. exists l, s. split; [reflexivity|]. split; [exact H1|]. apply shows_ns. auto.
  - intros (l0 & s & E & H1 & H2). injection E as <-. apply shows_ns in H2 as [H2 H3]. exists s. split; [exact H3|]. apply filter_In. auto.
Qed.

Lemma existsb_in m l : existsb (String.eqb m) l = true <-> In m l.
Proof. rewrite existsb_exists. split; [intros (x & H & E); apply String.eqb_eq in E; now subst | intros H; exists m; split; [exact H | apply String.eqb_refl]]. Qed.
Lemma managers_in srvs types guess m : In m (get_controller_managers srvs types guess) <->
  listed_ns srvs m /\ (In m guess \/ is_controller_manager types m = true).
Proof.
  unfold get_controller_managers. set (curr := sloppy_get_controller_managers srvs). set (G := filter _ guess).
  assert (S : forall l, In m (sorted l) <-> In m l) by (intros l; split; apply Permutation_in; [|symmetry]; apply sorted_perm).
  rewrite S, in_app_iff, filter_In. rewrite <- sloppy_in. fold curr.
  assert (HG : In m G <-> In m guess /\ In m curr) by (unfold G; rewrite filter_In, existsb_in; reflexivity).
  rewrite HG, andb_true_iff, negb_true_iff. destruct (existsb (String.eqb m) G) eqn:E.
  - apply existsb_in in E. apply HG in E. split; [intros [H|(_ & H & _)]; [tauto | discriminate H] | tauto].
  - assert (N : ~ In m G) by (intros X; apply existsb_in in X; congruence). rewrite HG in N. tauto.
Qed.

Lemma service_name m s : proper m -> (add_slash m ++ s)%string = service_at m s.
Proof.
  unfold proper, service_at, add_slash. intros [->|[Hne H]]; [reflexivity|].
  destruct (ends_slash m) eqn:E; [apply ends_slash_spec in E; contradiction|].
  destruct (String.eqb_spec m "/") as [->|_]; [discriminate E|]. now rewrite sapp_assoc.
Qed.
Lemma srv_exists_spec types n t : srv_exists types n t = true <-> types n = Some t.
Proof.
  unfold srv_exists. destruct (types n) as [x|]; [|split; discriminate]. rewrite String.eqb_eq. split; [intros ->; reflexivity | intros E; injection E; auto].
Qed.
Lemma is_manager_spec types m : proper m -> is_controller_manager types m = true <-> full_api types m.
Proof.
  intros P. unfold is_controller_manager, cm_services, full_api. cbn [forallb fst snd].
  rewrite !andb_true_iff, !srv_exists_spec, !(service_name m) by exact P. tauto.
Qed.

Lemma managers_again srvs types guess : let r := get_controller_managers srvs types guess in get_controller_managers srvs types r = r.
Proof.
  intros r. assert (R : forall m, In m r <-> listed_ns srvs m /\ (In m guess \/ is_controller_manager types m = true)) by (intros m; apply managers_in).
  unfold get_controller_managers at 1.
  assert (F1 : filter (fun ns => existsb (String.eqb ns) (sloppy_get_controller_managers srvs)) r = r).
  { assert (H : forall m, In m r -> existsb (String.eqb m) (sloppy_get_controller_managers srvs) = true) by (intros m Hm; apply existsb_in, sloppy_in; now apply R).
    revert H. clear. induction r as [|x r IH]; intros H; cbn; [reflexivity|]. rewrite (H x (or_introl eq_refl)), IH; auto. intros m Hm. apply H. now right. }
  rewrite F1.
  assert (F2 : filter (fun ns => negb (existsb (String.eqb ns) r) && is_controller_manager types ns) (sloppy_get_controller_managers srvs) = []).
  { assert (H : forall m, In m (sloppy_get_controller_managers srvs) -> negb (existsb (String.eqb m) r) && is_controller_manager types m = false).
    { intros m Hm. destruct (is_controller_manager types m) eqn:E; [|apply andb_false_r]. rewrite andb_true_r, negb_false_iff. apply existsb_in, R.
      apply sloppy_in in Hm. auto. }
    revert H. generalize (sloppy_get_controller_managers srvs). clear. intros l. induction l as [|x l IH]; intros H; cbn [filter]; [reflexivity|].
    rewrite (H x (or_introl eq_refl)). apply IH. intros m Hm. apply H. now right. }
  rewrite F2, app_nil_r. apply ordered_unique; [apply sorted_ordered | apply sorted_ordered | apply sorted_perm].
Qed.
Lemma managers_nodup srvs types guess : NoDup guess -> NoDup (sloppy_get_controller_managers srvs) -> NoDup (get_controller_managers srvs types guess).
Proof.
  intros H1 H2. unfold get_controller_managers. eapply Permutation_NoDup; [symmetry; apply sorted_perm|].
  set (G := filter _ guess). assert (NG : NoDup G) by now apply NoDup_filter. revert H2. generalize (sloppy_get_controller_managers srvs) as curr. intros curr H2.
  induction NG as [|x l Hx Hl IH]. 
  - cbn. now apply NoDup_filter.
  - change (NoDup ((x :: l) ++ filter (fun ns => negb (existsb (String.eqb ns) (x :: l)) && is_controller_manager types ns) curr)).
    assert (D : forall A (a b : list A), NoDup a -> NoDup b -> (forall y, In y a -> ~ In y b) -> NoDup (a ++ b)).
    { intros A a b Ha Hb Hd. induction Ha as [|y a Hy Ha IH2]; cbn; [exact Hb|]. constructor.
      - rewrite in_app_iff. intros [X|X]; [contradiction | exact (Hd y (or_introl eq_refl) X)].
      - apply IH2. intros z Hz. apply Hd. now right. }
    apply D; [now constructor | now apply NoDup_filter|]. intros y Hy X. apply filter_In in X as [_ X]. apply andb_true_iff in X as [X _].
    apply negb_true_iff in X. apply existsb_in in Hy. congruence.
Qed.
(** Two different services show two different namespaces: then nothing is listed twice. *)
Lemma sloppy_nodup l : (forall l1 s l2 s' l3 m, l = l1 ++ s :: l2 ++ s' :: l3 -> shows s m -> ~ shows s' m) -> NoDup (sloppy_get_controller_managers (Some l)).
Proof.
  rewrite sloppy_map. intros H. induction l as [|s l IH]; cbn [filter map]; [constructor|].
  assert (IH' : NoDup (map ns_of (filter (contains "/list_controllers") l))).
  { apply IH. intros l1 s0 l2 s' l3 m ->. exact (H (s :: l1) s0 l2 s' l3 m eq_refl). }
  destruct (contains "/list_controllers" s) eqn:E; [|exact IH']. cbn [map]. constructor; [|exact IH'].
  intros X. apply in_map_iff in X as (s' & E' & X). apply filter_In in X as [X1 X2]. apply in_split in X1 as (l2 & l3 & ->).
  apply (H [] s l2 s' l3 (ns_of s) eq_refl); apply shows_ns; auto.
Qed.

Lemma lister_history calls : forall known k r m, proper m -> nth_error (lister known calls) k = Some r ->
  (In m r <-> (In m known /\ forall i c, (i <= k)%nat -> nth_error calls i = Some c -> listed_ns (fst c) m) \/
              exists j c, (j <= k)%nat /\ nth_error calls j = Some c /\ full_api (snd c) m /\
                forall i c', (j <= i <= k)%nat -> nth_error calls i = Some c' -> listed_ns (fst c') m).
Proof.
  induction calls as [|[srvs types] calls IH]; intros known k r m P E; [destruct k; discriminate E|].
  cbn [lister] in E. destruct k as [|k]; cbn [nth_error] in E.
  - injection E as <-. rewrite managers_in, (is_manager_spec types m P). split.
    + intros [L [K|F]]; [left | right].
      * split; [exact K|]. intros i c Hi Hc. replace i with 0%nat in Hc by lia. injection Hc as <-. exact L.
      * exists 0%nat, (srvs, types). split; [lia|]. split; [reflexivity|]. split; [exact F|]. intros i c Hi Hc. replace i with 0%nat in Hc by lia. injection Hc as <-. exact L.
    + intros [[K L]|(j & c & Hj & Hc & F & L)].
      * split; [exact (L 0%nat _ (le_n _) eq_refl) | auto].
      * replace j with 0%nat in * by lia. injection Hc as <-. split; [exact (L 0%nat _ (conj (le_n _) (le_n _)) eq_refl) | auto].
  - rewrite (IH _ _ _ _ P E), managers_in, (is_manager_spec types m P). split.
    + intros [[[L0 KF] L]|(j & c & Hj & Hc & F & L)].
      * assert (LA : forall i c, (i <= S k)%nat -> nth_error ((srvs, types) :: calls) i = Some c -> listed_ns (fst c) m).
        { intros [|i] c Hi Hc; [injection Hc as <-; exact L0 | apply (L i c); [lia | exact Hc]]. }
        destruct KF as [K|F]; [left; auto|]. right. exists 0%nat, (srvs, types). split; [lia|]. split; [reflexivity|]. split; [exact F|]. intros i c Hi. apply LA. lia.
      * right. exists (S j), c. split; [lia|]. split; [exact Hc|]. split; [exact F|]. intros [|i] c' Hi Hc'; [lia|]. apply (L i c'); [lia | exact Hc'].
    + intros [[K L]|(j & c & Hj & Hc & F & L)].
      * left. split; [split; [exact (L 0%nat _ (Nat.le_0_l _) eq_refl) | auto]|]. intros i c Hi Hc. apply (L (S i) c); [lia | exact Hc].
      * destruct j as [|j].
        -- injection Hc as <-. left. split; [split; [apply (L 0%nat (srvs, types)); [lia | reflexivity] | auto]|]. intros i c Hi Hc. apply (L (S i) c); [lia | exact Hc].
        -- right. exists j, c. split; [lia|]. split; [exact Hc|]. split; [exact F|]. intros i c' Hi Hc'. apply (L (S i) c'); [lia | exact Hc'].
Qed.
