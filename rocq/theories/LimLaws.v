(** What the proofs about joint limits need to know about the number type: the comparison
    is a weak order on the values that are not NaN, and the operations are monotone.
    Both exact rationals (LimExact.v) and IEEE 754 binary64 numbers (LimDouble.v) satisfy
    all of it. *)
From Verif Require Export LimModel.

Section Laws.
Context (A : arith).
Notation F := (num A).

(** Not a NaN. *)
Definition numeric (a : F) : Prop := isnan A a = false.
(** The order of the number type; false as soon as a NaN is involved. *)
Definition le (a b : F) : Prop := numeric a /\ numeric b /\ ltb A b a = false.
Definition lt (a b : F) : Prop := ltb A a b = true.
(** Between two bounds, both included. *)
Definition within (lo hi a : F) : Prop := le lo a /\ le a hi.

(** [fin]: finite; [tame]: so far from the largest number that a difference of two such
    numbers is finite. *)
Record laws (fin tame : F -> Prop) : Prop := mkLaws {
  tame_fin : forall a, tame a -> fin a;
  fin_num : forall a, fin a -> numeric a;
  nan_nan : isnan A (nan A) = true;
  add_nan : forall a b, isnan A a = true -> isnan A (add A a b) = true;
  sub_nan : forall a b, isnan A a = true -> isnan A (sub A a b) = true;
  ltb_num : forall a b, ltb A a b = true -> numeric a /\ numeric b;
  ltb_asym : forall a b, ltb A a b = true -> ltb A b a = false;
  le_trans : forall a b c, le a b -> le b c -> le a c;
  fin_between : forall lo hi a, fin lo -> fin hi -> within lo hi a -> fin a;
  tame_between : forall lo hi a, tame lo -> tame hi -> within lo hi a -> tame a;
  zero_tame : tame (zero A);
  max_fin : fin (maxnum A);
  max_pos : le (zero A) (maxnum A);
  opp_num : forall a, numeric a -> numeric (opp A a);
  opp_fin : forall a, fin a -> fin (opp A a);
  opp_tame : forall a, tame a -> tame (opp A a);
  opp_le : forall a b, le a b -> le (opp A b) (opp A a);
  opp_zero : le (opp A (zero A)) (zero A) /\ le (zero A) (opp A (zero A));
  opp_opp : forall a, opp A (opp A a) = a;
  add_le : forall a b c, fin a -> le b c -> le (add A a b) (add A a c);
  add_zero : forall a, fin a -> le (add A a (zero A)) a /\ le a (add A a (zero A));
  sub_le : forall a b c, fin a -> le b c -> le (sub A a c) (sub A a b);
  sub_le_l : forall a b c, fin a -> fin b -> fin c -> le a b -> le (sub A a c) (sub A b c);
  sub_zero : forall a, fin a -> le (sub A a (zero A)) a /\ le a (sub A a (zero A));
  sub_same : forall a, fin a -> le (sub A a a) (zero A) /\ le (zero A) (sub A a a);
  sub_tame : forall a b, tame a -> tame b -> fin (sub A a b);
  add_opp : forall a b, fin a -> fin b -> le (add A a (opp A b)) (sub A a b) /\
                                          le (sub A a b) (add A a (opp A b));
  mul_le : forall a b d, fin a -> fin b -> fin d -> le (zero A) d -> le a b ->
             le (mul A a d) (mul A b d);
  mul_ge : forall k a b, fin k -> fin a -> fin b -> le k (zero A) -> le a b ->
             le (mul A k b) (mul A k a);
  mul_zero : forall d, fin d -> le (mul A (zero A) d) (zero A) /\ le (zero A) (mul A (zero A) d);
  mul_zero_r : forall d, fin d -> le (mul A d (zero A)) (zero A) /\ le (zero A) (mul A d (zero A));
  mul_opp : forall a b, fin a -> fin b -> le (mul A (opp A a) b) (opp A (mul A a b)) /\
                                          le (opp A (mul A a b)) (mul A (opp A a) b)
}.
End Laws.
Arguments numeric {A}. Arguments le {A}. Arguments lt {A}. Arguments within {A}.
