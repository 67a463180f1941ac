(** Facts about sorted string maps and sets. *)
From Coq Require Import String List Bool Sorted Ascii NArith Lia.
From Verif Require Import SMap.

Definition slt (a b : string) : Prop := String.compare a b = Lt.

Lemma ascii_compare_eq a b : Ascii.compare a b = Eq -> a = b.
Proof.
  unfold Ascii.compare; intros H. apply N.compare_eq in H.
  rewrite <- (ascii_N_embedding a), <- (ascii_N_embedding b), H; reflexivity.
Qed.

Lemma ascii_compare_lt_trans a b c :
  Ascii.compare a b = Lt -> Ascii.compare b c = Lt -> Ascii.compare a c = Lt.
Proof. unfold Ascii.compare; rewrite !N.compare_lt_iff; lia. Qed.

Lemma ascii_compare_refl a : Ascii.compare a a = Eq.
Proof. unfold Ascii.compare; apply N.compare_refl. Qed.

Lemma scompare_refl a : String.compare a a = Eq.
Proof. induction a; simpl; [reflexivity|]. rewrite ascii_compare_refl; exact IHa. Qed.

Lemma scompare_eq a b : String.compare a b = Eq -> a = b.
Proof. apply String.compare_eq_iff. Qed.

Lemma slt_irrefl a : ~ slt a a.
Proof. unfold slt; rewrite scompare_refl; discriminate. Qed.

Lemma slt_trans a b c : slt a b -> slt b c -> slt a c.
Proof.
  unfold slt; revert b c; induction a as [|x a IH]; intros [|y b] [|z c]; simpl; try discriminate; auto.
  destruct (Ascii.compare x y) eqn:E1; try discriminate;
  destruct (Ascii.compare y z) eqn:E2; try discriminate; intros H1 H2.
  - apply ascii_compare_eq in E1; apply ascii_compare_eq in E2; subst.
    rewrite ascii_compare_refl. eauto.
  - apply ascii_compare_eq in E1; subst. rewrite E2; reflexivity.
  - apply ascii_compare_eq in E2; subst. rewrite E1; reflexivity.
  - rewrite (ascii_compare_lt_trans _ _ _ E1 E2); reflexivity.
Qed.

Lemma scompare_gt a b : String.compare a b = Gt -> slt b a.
Proof.
  unfold slt; intros H. rewrite String.compare_antisym, H; reflexivity.
Qed.

Definition ssorted {A} (m : smap A) : Prop := StronglySorted slt (skeys m).

Lemma sset_keys_in {A} k (v : A) m x :
  In x (skeys (sset k v m)) <-> x = k \/ In x (skeys m).
Proof.
  induction m as [|[k' v'] m IH]; simpl.
  - intuition.
  - destruct (String.compare k k') eqn:E; simpl.
    + apply scompare_eq in E; subst; intuition.
    + intuition.
    + unfold skeys in *; rewrite IH; intuition.
Qed.

Lemma sset_sorted {A} k (v : A) m : ssorted m -> ssorted (sset k v m).
Proof.
  unfold ssorted; induction m as [|[k' v'] m IH]; simpl; intros H.
  - repeat constructor.
  - inversion H as [|? ? H1 H2]; subst.
    destruct (String.compare k k') eqn:E; simpl.
    + apply scompare_eq in E; subst; constructor; assumption.
    + constructor; [assumption|]. constructor; [exact E|].
      eapply Forall_impl; [|exact H2]. intros a; apply slt_trans; exact E.
    + constructor; [apply IH; assumption|].
      rewrite Forall_forall in *. intros x Hx. apply sset_keys_in in Hx as [->|Hx].
      * apply scompare_gt; exact E.
      * apply H2; exact Hx.
Qed.

Lemma sfind_sset {A} k (v : A) m k' :
  sfind k' (sset k v m) = if String.eqb k' k then Some v else sfind k' m.
Proof.
  induction m as [|[k0 v0] m IH]; simpl.
  - reflexivity.
  - destruct (String.compare k k0) eqn:E; simpl.
    + apply scompare_eq in E; subst. destruct (String.eqb k' k0); reflexivity.
    + reflexivity.
    + rewrite IH. destruct (String.eqb_spec k' k0); [|reflexivity].
      subst. destruct (String.eqb_spec k0 k); [|reflexivity].
      subst. rewrite scompare_refl in E; discriminate.
Qed.

Lemma sfind_in_keys {A} k (m : smap A) : sfind k m <> None <-> In k (skeys m).
Proof.
  induction m as [|[k' v'] m IH]; simpl.
  - intuition.
  - destruct (String.eqb_spec k k').
    + subst; split; [auto|discriminate].
    + rewrite IH; intuition congruence.
Qed.

Lemma sfind_none {A} k (m : smap A) : sfind k m = None <-> ~ In k (skeys m).
Proof.
  rewrite <- sfind_in_keys. destruct (sfind k m); intuition congruence.
Qed.

Lemma ssorted_nodup {A} (m : smap A) : ssorted m -> NoDup (skeys m).
Proof.
  unfold ssorted. induction 1; constructor; auto.
  intros Hin. rewrite Forall_forall in H0. exact (slt_irrefl _ (H0 _ Hin)).
Qed.

Lemma sfind_in {A} k (v : A) (m : smap A) : ssorted m -> (sfind k m = Some v <-> In (k, v) m).
Proof.
  unfold ssorted; induction m as [|[k' v'] m IH]; simpl; intros Hs.
  - intuition discriminate.
  - inversion Hs as [|? ? H1 H2]; subst.
    destruct (String.eqb_spec k k').
    + subst. split.
      * intros [= ->]; auto.
      * intros [[= ->]|Hin]; [reflexivity|].
        exfalso. rewrite Forall_forall in H2.
        apply (slt_irrefl k'), H2. apply in_map_iff; exists (k', v); auto.
    + rewrite IH by assumption. intuition congruence.
Qed.

Lemma sset_nil_sorted {A} : ssorted (@nil (string * A)).
Proof. constructor. Qed.

(** Sets. *)
Lemma set_insert_in k s x : In x (set_insert k s) <-> x = k \/ In x s.
Proof.
  induction s as [|y s IH]; simpl.
  - intuition.
  - destruct (String.compare k y) eqn:E; simpl.
    + apply scompare_eq in E; subst; intuition.
    + intuition.
    + rewrite IH; intuition.
Qed.

Lemma set_insert_sorted k s : StronglySorted slt s -> StronglySorted slt (set_insert k s).
Proof.
  induction s as [|y s IH]; simpl; intros H.
  - repeat constructor.
  - inversion H as [|? ? H1 H2]; subst.
    destruct (String.compare k y) eqn:E.
    + constructor; assumption.
    + constructor; [assumption|]. constructor; [exact E|].
      eapply Forall_impl; [|exact H2]. intros a; apply slt_trans; exact E.
    + constructor; [auto|]. rewrite Forall_forall in *. intros x Hx.
      apply set_insert_in in Hx as [->|Hx]; [apply scompare_gt; exact E|auto].
Qed.

Lemma sorted_nodup s : StronglySorted slt s -> NoDup s.
Proof.
  induction 1; constructor; auto.
  intros Hin. rewrite Forall_forall in H0. exact (slt_irrefl _ (H0 _ Hin)).
Qed.

(** Two strictly sorted lists with the same members are equal. *)
Lemma sorted_ext s1 s2 :
  StronglySorted slt s1 -> StronglySorted slt s2 -> (forall x, In x s1 <-> In x s2) -> s1 = s2.
Proof.
  revert s2; induction s1 as [|x s1 IH]; intros [|y s2] H1 H2 Hext.
  - reflexivity.
  - exfalso; apply (Hext y); left; reflexivity.
  - exfalso; apply (Hext x); left; reflexivity.
  - inversion H1 as [|? ? H1a H1b]; inversion H2 as [|? ? H2a H2b]; subst.
    rewrite Forall_forall in *.
    assert (x = y) as ->.
    { destruct (proj1 (Hext x) (or_introl eq_refl)) as [E|Hx]; [auto|].
      destruct (proj2 (Hext y) (or_introl eq_refl)) as [E|Hy]; [auto|].
      exfalso; apply (slt_irrefl x). eapply slt_trans; [apply H1b, Hy|apply H2b, Hx]. }
    f_equal. apply IH; auto. intros z; split; intros Hz.
    + destruct (proj1 (Hext z) (or_intror Hz)) as [E|]; [|assumption].
      subst. exfalso. exact (slt_irrefl _ (H1b _ Hz)).
    + destruct (proj2 (Hext z) (or_intror Hz)) as [E|]; [|assumption].
      subst. exfalso. exact (slt_irrefl _ (H2b _ Hz)).
Qed.

(** A map filled by a sequence of insertions holds the last one of each key, in key order. *)
Lemma fold_sset {A B} (key : B -> string) (val : B -> A) regs m n : ssorted m ->
  let m' := fold_left (fun m r => sset (key r) (val r) m) regs m in
  ssorted m' /\ sfind n m' = match find (fun r => String.eqb (key r) n) (rev regs) with Some r => Some (val r) | None => sfind n m end.
Proof.
  revert m. induction regs as [|r regs IH]; intros m Hm; cbn [fold_left rev]; [split; [exact Hm|reflexivity]|].
  destruct (IH (sset (key r) (val r) m) (sset_sorted _ _ _ Hm)) as [I1 I2]. split; [exact I1|]. cbv zeta in I2. rewrite I2.
  assert (F : forall l (x : B) f, find f (l ++ [x]) = match find f l with Some y => Some y | None => if f x then Some x else None end).
  { clear. induction l as [|y l IH]; intros x f; cbn; [destruct (f x); reflexivity|]. destruct (f y); [reflexivity|apply IH]. }
  rewrite F. destruct (find _ (rev regs)); [reflexivity|]. rewrite sfind_sset, (String.eqb_sym n). destruct (String.eqb (key r) n); reflexivity.
Qed.
