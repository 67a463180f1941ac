(** Proofs about transmissions that hold for every arithmetic (TransModel.v, TransSpec.v). *)
From Coq Require Import Arith Lia.
From Verif Require Import TransModel TransSpec.

Section Pure.
Context (A : darith).
Notation F := (num A).
Notation "x + y" := (add A x y). Notation "x - y" := (sub A x y). Notation "x * y" := (mul A x y).

(** Values computed by an actuator-to-joint map when nothing is aliased. *)
Definition pure_a2j (t : transmission A) (q : quantity) (l : list F) : res (list F) :=
  match t, l with
  | Simple _ r o, [x] =>
      match q with
      | Effort | TorqueSensor => Ok [x * r]
      | Velocity => y <- divide A x r ;; Ok [y]
      | Position | AbsolutePosition => y <- divide A x r ;; Ok [y + o]
      end
  | Differential _ [a0; a1] [j0; j1] [o0; o1] ign, [x; y] =>
      match q with
      | Effort | TorqueSensor => Ok [j0 * (x * a0 + y * a1); j1 * (x * a0 - y * a1)]
      | Velocity =>
          p <- divide A x a0 ;; q <- divide A y a1 ;;
          s <- divide A (p + q) (two A * j0) ;; t <- divide A (p - q) (two A * j1) ;; Ok [s; t]
      | Position =>
          p <- divide A x a0 ;; q <- divide A y a1 ;;
          s <- divide A (p + q) (two A * j0) ;; t <- divide A (p - q) (two A * j1) ;; Ok [s + o0; t + o1]
      | AbsolutePosition =>
          if ign then Ok [y; x] else
          p <- divide A x a0 ;; q <- divide A y a1 ;;
          s <- divide A (p + q) (two A * j0) ;; t <- divide A (p - q) (two A * j1) ;; Ok [s + o0; t + o1]
      end
  | FourBar _ [a0; a1] [j0; j1] [o0; o1], [x; y] =>
      match q with
      | Effort | TorqueSensor => Ok [j0 * (x * a0); j1 * (y * a1 - x * a0 * j0)]
      | Velocity =>
          s <- divide A x (j0 * a0) ;; p <- divide A y a1 ;; t <- divide A (p - s) j1 ;; Ok [s; t]
      | Position | AbsolutePosition =>
          s <- divide A x (j0 * a0) ;; p <- divide A y a1 ;; t <- divide A (p - s) j1 ;; Ok [s + o0; t + o1]
      end
  | _, _ => Invalid
  end.

(** Values computed by a joint-to-actuator map when nothing is aliased. *)
Definition pure_j2a (t : transmission A) (q : quantity) (l : list F) : res (list F) :=
  match t, l with
  | Simple _ r o, [x] =>
      match q with
      | Effort => y <- divide A x r ;; Ok [y]
      | Velocity => Ok [x * r]
      | Position => Ok [(x - o) * r]
      | _ => Invalid
      end
  | Differential _ [a0; a1] [j0; j1] [o0; o1] _, [x; y] =>
      match q with
      | Effort =>
          p <- divide A x j0 ;; q <- divide A y j1 ;;
          s <- divide A (p + q) (two A * a0) ;; t <- divide A (p - q) (two A * a1) ;; Ok [s; t]
      | Velocity => Ok [(x * j0 + y * j1) * a0; (x * j0 - y * j1) * a1]
      | Position => Ok [((x - o0) * j0 + (y - o1) * j1) * a0; ((x - o0) * j0 - (y - o1) * j1) * a1]
      | _ => Invalid
      end
  | FourBar _ [a0; a1] [j0; j1] [o0; o1], [x; y] =>
      match q with
      | Effort =>
          s <- divide A x (a0 * j0) ;; p <- divide A y j1 ;; t <- divide A (x + p) a1 ;; Ok [s; t]
      | Velocity => Ok [x * j0 * a0; (x + y * j1) * a1]
      | Position => Ok [(x - o0) * j0 * a0; ((x - o0) + (y - o1) * j1) * a1]
      | _ => Invalid
      end
  | _, _ => Invalid
  end.

(** Writing some variables one after the other. *)
Fixpoint write (m : mem A) (l : list addr) (xs : list F) : mem A :=
  match l, xs with a :: l', x :: xs' => write (upd A m a x) l' xs' | _, _ => m end.

Lemma upd_same m a x : upd A m a x a = x.
Proof. unfold upd. now rewrite Nat.eqb_refl. Qed.
Lemma upd_other m a b x : b <> a -> upd A m a x b = m b.
Proof. intros H. unfold upd. apply Nat.eqb_neq in H. now rewrite H. Qed.

Lemma write_out l : forall xs m c, ~ In c l -> write m l xs c = m c.
Proof.
  induction l as [|a l IH]; intros [|x xs] m c H; cbn in *; auto.
  rewrite IH by tauto. apply upd_other. intros ->. tauto.
Qed.

Lemma write_in l : forall xs m, NoDup l -> List.length l = List.length xs -> map (write m l xs) l = xs.
Proof.
  induction l as [|a l IH]; intros [|x xs] m ND HL; cbn in *; try discriminate; auto.
  inversion ND; subst. f_equal.
  - rewrite write_out by assumption. apply upd_same.
  - apply IH; [assumption | lia].
Qed.

(** The shape of the parameters of a constructed transmission. *)
Definition params_ok (t : transmission A) : Prop :=
  match t with
  | Simple _ r _ => is_zero A r = false
  | Differential _ ar jr off _ | FourBar _ ar jr off =>
      exists a0 a1 j0 j1 o0 o1, ar = [a0; a1] /\ jr = [j0; j1] /\ off = [o0; o1] /\
        is_zero A a0 = false /\ is_zero A a1 = false /\ is_zero A j0 = false /\ is_zero A j1 = false
  end.

Lemma two_list {T} (l : list T) : List.length l = 2 -> exists a b, l = [a; b].
Proof. destruct l as [|a [|b [|c l]]]; try discriminate. eauto. Qed.

Lemma two_params (ar jr off : list F) :
  negb (List.length ar =? 2)%nat || negb (List.length jr =? 2)%nat || negb (List.length off =? 2)%nat = false ->
  zero_reduction A ar jr = false ->
  exists a0 a1 j0 j1 o0 o1, ar = [a0; a1] /\ jr = [j0; j1] /\ off = [o0; o1] /\
        is_zero A a0 = false /\ is_zero A a1 = false /\ is_zero A j0 = false /\ is_zero A j1 = false.
Proof.
  intros HL HZ. apply orb_false_iff in HL as [HL H3]. apply orb_false_iff in HL as [H1 H2].
  apply negb_false_iff, Nat.eqb_eq in H1, H2, H3.
  apply two_list in H1 as (a0 & a1 & ->). apply two_list in H2 as (j0 & j1 & ->). apply two_list in H3 as (o0 & o1 & ->).
  cbn in HZ. repeat (apply orb_false_iff in HZ as [? HZ]).
  exists a0, a1, j0, j1, o0, o1. auto 10.
Qed.

Lemma constructed_params t : constructed A t -> params_ok t.
Proof.
  intros [(r & o & H) | [(ar & jr & off & ign & H) | (ar & jr & off & H)]].
  - unfold make_simple in H. destruct (is_zero A r) eqn:E; inversion H. exact E.
  - unfold make_differential in H.
    destruct (negb _ || _ || _) eqn:EL; [discriminate|].
    destruct (zero_reduction A ar jr) eqn:EZ; inversion H. now apply two_params.
  - unfold make_four_bar in H.
    destruct (negb _ || _ || _) eqn:EL; [discriminate|].
    destruct (zero_reduction A ar jr) eqn:EZ; inversion H. now apply two_params.
Qed.

Ltac lists := repeat match goal with
  | H : List.length ?l = 1%nat |- _ => destruct l as [|? [|? ?]]; try discriminate H; clear H
  | H : List.length ?l = 2%nat |- _ => destruct l as [|? [|? [|? ?]]]; try discriminate H; clear H
  end.

(** Differential transmissions also look at the first position pointer when mapping absolute positions. *)
Definition abs_ok (t : transmission A) (q : quantity) (act : data) : Prop :=
  match t, q with
  | Differential _ _ _ _ _, AbsolutePosition => exists p v, d_position act = Some p :: v
  | _, _ => True
  end.

(** Vectors of the right size with valid pointers. *)
Definition linked (t : transmission A) (q : quantity) (act jnt : data) (la lj : list addr) : Prop :=
  side q act = map Some la /\ side q jnt = map Some lj /\
  List.length la = num_actuators A t /\ List.length lj = num_joints A t.
Definition disjoint (l l' : list addr) : Prop := forall a, In a l -> ~ In a l'.

Lemma apart1 (a b : addr) : disjoint [a] [b] -> a <> b.
Proof. intros H ->. apply (H b); cbn; auto. Qed.
Lemma apart2 (a b c d : addr) : NoDup [c; d] -> disjoint [a; b] [c; d] -> a <> c /\ a <> d /\ b <> c /\ b <> d /\ c <> d.
Proof.
  intros N D. inversion N; subst. pose proof (D a). pose proof (D b). cbn in *. intuition congruence.
Qed.

Ltac neqs := repeat match goal with
  | H : ?a <> ?b |- context [Nat.eqb ?a ?b] => rewrite (proj2 (Nat.eqb_neq a b) H)
  | H : ?b <> ?a |- context [Nat.eqb ?a ?b] => rewrite (proj2 (Nat.eqb_neq a b) (not_eq_sym H))
  end.

Lemma a2j_eval t q act jnt la lj m :
  params_ok t -> linked t q act jnt la lj -> NoDup lj -> disjoint la lj -> abs_ok t q act ->
  to_joint A q t act jnt m = (l <- pure_a2j t q (map m la) ;; Ok (write m lj l)).
Proof.
  intros HP (Ha & Hj & La & Lj) ND DJ HX.
  destruct t as [r o | ar jr off ign | ar jr off]; cbn in La, Lj; lists;
    [apply apart1 in DJ | apply apart2 in DJ as (? & ? & ? & ? & ?); [|exact ND]; destruct HP as (u0 & u1 & w0 & w1 & z0 & z1 & -> & -> & -> & Z) ..];
    destruct q; cbn in Ha, Hj; cbn -[Nat.eqb];
    match goal with |- ?f _ _ _ _ = _ => unfold f | |- ?f _ _ _ _ _ = _ => unfold f | |- ?f _ _ _ _ _ _ = _ => unfold f
      | |- ?f _ _ _ _ _ _ _ = _ => unfold f  | |- ?f _ _ _ _ _ _ _ _ = _ => unfold f end;
    unfold checks2, check, load, store, at_, divide; rewrite ?Ha, ?Hj; try (destruct HX as (p & v & ->));
    cbn -[Nat.eqb]; unfold upd; neqs; try reflexivity;
    repeat match goal with |- context [if is_zero A ?x then _ else _] => destruct (is_zero A x) eqn:?; cbn -[Nat.eqb]; neqs; try reflexivity end;
    try destruct ign; cbn -[Nat.eqb]; neqs; try reflexivity;
    repeat match goal with |- context [if is_zero A ?x then _ else _] => destruct (is_zero A x) eqn:?; cbn -[Nat.eqb]; neqs; try reflexivity end.
Qed.

Lemma j2a_eval t q act jnt la lj m :
  params_ok t -> both_ways q -> linked t q act jnt la lj -> NoDup la -> disjoint lj la ->
  to_actuator A q t jnt act m = (l <- pure_j2a t q (map m lj) ;; Ok (write m la l)).
Proof.
  intros HP HB (Ha & Hj & La & Lj) ND DJ.
  destruct t as [r o | ar jr off ign | ar jr off]; cbn in La, Lj; lists;
    [apply apart1 in DJ | apply apart2 in DJ as (? & ? & ? & ? & ?); [|exact ND]; destruct HP as (u0 & u1 & w0 & w1 & z0 & z1 & -> & -> & -> & Z) ..];
    destruct q; try (exfalso; destruct HB as [HB | [HB | HB]]; discriminate HB); cbn in Ha, Hj; cbn -[Nat.eqb];
    match goal with |- ?f _ _ _ _ = _ => unfold f | |- ?f _ _ _ _ _ = _ => unfold f | |- ?f _ _ _ _ _ _ = _ => unfold f
      | |- ?f _ _ _ _ _ _ _ = _ => unfold f  | |- ?f _ _ _ _ _ _ _ _ = _ => unfold f end;
    unfold checks2, check, load, store, at_, divide; rewrite ?Ha, ?Hj;
    cbn -[Nat.eqb]; unfold upd; neqs; try reflexivity;
    repeat match goal with |- context [if is_zero A ?x then _ else _] => destruct (is_zero A x) eqn:?; cbn -[Nat.eqb]; neqs; try reflexivity end.
Qed.

End Pure.
